(** * Properties of the collision terms of trajopt: C67, C68 *)
From Coq Require Import List ZArith Bool Arith Reals Lra Lia.
From Verif Require Import Num NumFacts RSums Common ScoExprModel ScoExprProofs ModelingModel ModelingSpec ModelingProofs CollisionModel TermsModel TermsProofs.
Import ListNotations.
Local Open Scope R_scope.

(** ** C67: collision results come from the queried state *)

(** Holds for every history of queries whose states have non-zero hashes and do not collide
    (more exactly: colliding states have the same contact results). *)
Theorem C67_partial {X V} (hash : X -> Z) (compute : X -> V) (n : nat) (xs : list X) :
  (0 < n)%nat ->
  (forall x y, In x xs -> In y xs -> hash x = hash y -> compute x = compute y) ->
  (forall x, In x xs -> hash x <> 0%Z) ->
  exists c vs, queries hash compute (sc_new n) xs = Ok (c, vs) /\ map fst vs = map compute xs.
Proof.
  intros Hn Hinj Hnz. destruct (queries_ok hash compute n (fun x => In x xs) Hn Hinj Hnz xs (sc_new n)) as (c & vs & E & M & _).
  - apply sc_new_inv, Hn.
  - apply Forall_forall. auto.
  - eauto.
Qed.
Print Assumptions C67_partial.

Example C67_ex : exists c vs,
  queries (fun x : Z * Z => fst x + 10 * snd x)%Z (fun x => (fst x - snd x)%Z) (sc_new 2)
    [(1, 2); (1, 2); (3, 4); (5, 6); (1, 2); (5, 6)]%Z = Ok (c, vs) /\
  vs = [(-1, true); (-1, false); (-1, true); (-1, true); (-1, true); (-1, false)]%Z.
Proof. eexists; eexists. split; [vm_compute; reflexivity|reflexivity]. Qed.

(** An immediately repeated query is answered without running the contact checker, with the same answer. *)
Lemma queries_lengths {X V} (hash : X -> Z) (compute : X -> V) xs : forall c c' vs,
  queries hash compute c xs = Ok (c', vs) -> length (sc_keys c) = length (sc_vals c) -> length (sc_keys c') = length (sc_vals c').
Proof.
  induction xs as [|x xs IH]; intros c c' vs; cbn [queries]; [intros [= <- _]; auto|].
  destruct (cached hash compute c x) as [[[c1 v] b]| |] eqn:E; cbn [obind]; try discriminate.
  destruct (queries hash compute c1 xs) as [[c2 ws]| |] eqn:E2; cbn [obind]; try discriminate.
  intros [= <- _] H. apply (IH _ _ _ E2). unfold cached in E. destruct (sc_get c (hash x)) as [[w|]|]; try discriminate.
  - injection E as <- _ _. exact H.
  - unfold sc_put in E. destruct (sc_m c <? length (sc_keys c))%nat; [|discriminate]. cbn [obind] in E.
    injection E as <- _ _. cbn. rewrite !set_nth_length. exact H.
Qed.

Theorem C67_repeat {X V} (hash : X -> Z) (compute : X -> V) (n : nat) (xs : list X) (x : X) c vs c' v b :
  queries hash compute (sc_new n) xs = Ok (c, vs) -> cached hash compute c x = Ok (c', v, b) ->
  cached hash compute c' x = Ok (c', v, false).
Proof.
  intros Q. assert (LL : length (sc_keys c) = length (sc_vals c)).
  { apply (queries_lengths _ _ _ _ _ _ Q). cbn. rewrite !repeat_length. reflexivity. }
  unfold cached at 1. destruct (sc_get c (hash x)) as [[w|]|] eqn:E; [|discriminate|].
  - intros H. injection H as <- <- <-. unfold cached. rewrite E. reflexivity.
  - unfold sc_put. destruct (sc_m c <? length (sc_keys c))%nat eqn:L; [|discriminate]. cbn [obind]. apply Nat.ltb_lt in L.
    intros H. injection H as <- <- <-. unfold cached, sc_get in *. cbn [sc_keys sc_vals].
    pose proof (sc_find_spec (sc_keys c) (hash x)) as F0. destruct (sc_find (sc_keys c) (hash x)) as [|]; [discriminate|].
    pose proof (sc_find_spec (set_nth (sc_keys c) (sc_m c) (hash x)) (hash x)) as F.
    destruct (sc_find (set_nth (sc_keys c) (sc_m c) (hash x)) (hash x)) as [i|].
    + destruct F as [F1 F2]. rewrite set_nth_length in F1. rewrite set_nth_nth in F2 by exact L.
      destruct (Nat.eqb_spec i (sc_m c)) as [->|]; [|exfalso; apply F0; rewrite <- F2; apply nth_In, F1].
      rewrite set_nth_nth, Nat.eqb_refl by lia. reflexivity.
    + exfalso. apply F.
      assert (N : nth (sc_m c) (set_nth (sc_keys c) (sc_m c) (hash x)) 0%Z = hash x) by (rewrite set_nth_nth, Nat.eqb_refl by exact L; reflexivity).
      pattern (hash x) at 1. rewrite <- N. apply nth_In. rewrite set_nth_length. exact L.
Qed.
Print Assumptions C67_repeat.

(** ... but not in general: the cache compares 64-bit hashes only, so for every hash function there
    are two states of a two-joint robot, with all joint values in [1, 2), that a history of two
    queries does not answer correctly.  (States are given by the bit patterns of the values;
    [compute] is the identity, i.e. a contact checker that tells these states apart.) *)
Definition word12 (w : Z) : Prop := (1023 * 2 ^ 52 <= w < 1024 * 2 ^ 52)%Z.
Lemma hash_collides (A N : Z) (hash : list Z -> Z) : (4096 < A)%Z -> N = (4096 * A)%Z ->
  (forall x, (0 <= hash x < N)%Z) -> exists x y : list Z, length x = 2%nat /\ length y = 2%nat /\
  Forall (fun w => 1023 * A <= w < 1024 * A)%Z x /\ Forall (fun w => 1023 * A <= w < 1024 * A)%Z y /\ x <> y /\ hash x = hash y.
Proof.
  intros HA EN Hh.
  set (f := fun i : nat => [1023 * A + Z.of_nat i mod A; 1023 * A + Z.of_nat i / A]%Z).
  assert (HN : exists n, Z.of_nat n = N) by (exists (Z.to_nat N); apply Z2Nat.id; lia). destruct HN as [n HN].
  destruct (pigeonhole n (fun i => Z.to_nat (hash (f i)))) as (i & j & Hij & E).
  { intros i _. specialize (Hh (f i)). apply Nat2Z.inj_lt. rewrite HN, Z2Nat.id by apply Hh. apply Hh. }
  assert (HE : hash (f i) = hash (f j)) by (apply Z2Nat.inj; [apply Hh|apply Hh|exact E]).
  assert (Hw : forall k, (k <= n)%nat -> Forall (fun w => 1023 * A <= w < 1024 * A)%Z (f k)).
  { intros k Hk. assert (Hz : (Z.of_nat k <= N)%Z) by lia.
    pose proof (Z.mod_pos_bound (Z.of_nat k) A ltac:(lia)).
    assert (D1 : (0 <= Z.of_nat k / A)%Z) by (apply Z.div_pos; lia).
    assert (D2 : (Z.of_nat k / A <= 4096 * A / A)%Z) by (apply Z.div_le_mono; lia).
    rewrite Z.div_mul in D2 by lia. unfold f. constructor; [lia|]. constructor; [lia|constructor]. }
  exists (f i), (f j). split; [reflexivity|]. split; [reflexivity|].
  split; [apply Hw; lia|]. split; [apply Hw; lia|]. split; [|exact HE].
  unfold f. intros K. injection K as K1 K2. pose proof (Z_div_mod_eq_full (Z.of_nat i) A).
  pose proof (Z_div_mod_eq_full (Z.of_nat j) A).
  assert (Z.of_nat i = Z.of_nat j) by (rewrite H, H0; f_equal; [f_equal|]; lia). lia.
Qed.

Theorem C67_refuted : forall hash : list Z -> Z, (forall x, (0 <= hash x < 2 ^ 64)%Z) ->
  exists x y : list Z, length x = 2%nat /\ length y = 2%nat /\ Forall word12 x /\ Forall word12 y /\ x <> y /\
    ~ exists c vs, queries hash (fun x => x) (sc_new 2) [x; y] = Ok (c, vs) /\ map fst vs = [x; y].
Proof.
  intros hash Hh. destruct (hash_collides (2 ^ 52) (2 ^ 64) hash) as (x & y & L1 & L2 & W1 & W2 & Hne & HE);
    [reflexivity|reflexivity|exact Hh|].
  exists x, y. split; [exact L1|]. split; [exact L2|]. split; [exact W1|]. split; [exact W2|]. split; [exact Hne|].
  clear - Hne HE. intros (c & vs & Q & M). revert Q. cbn [queries]. unfold cached, sc_get, sc_new at 1. cbn [sc_keys sc_vals repeat sc_find nth].
  destruct (Z.eqb_spec 0 (hash x)) as [Z0|Z0]; cbn [option_map nth]; [discriminate|].
  cbn. rewrite <- HE, Z.eqb_refl. cbn. intros Q. injection Q as <- <-. cbn in M. congruence.
Qed.
Print Assumptions C67_refuted.

(** A state whose hash is 0 finds the untouched slots and their null pointers. *)
Theorem C67_zero_hash_refuted {X V} (hash : X -> Z) (compute : X -> V) (n : nat) (x : X) :
  (0 < n)%nat -> hash x = 0%Z -> cached hash compute (sc_new n) x = Undef.
Proof. intros Hn Hx. destruct n; [lia|]. unfold cached, sc_get. rewrite Hx. reflexivity. Qed.
Print Assumptions C67_zero_hash_refuted.

(** ** C68: the convexified collision terms at the linearisation point *)

(** Single time step: the expressions are exactly linear in the displacement, the hinge model's
    minimum over its auxiliary variables is the cost, the constraint's violations are its values. *)
Theorem C68_single_step (debug : bool) (m : list (option R * option R)) (vars : list nat) (x : list R) (cs : list (tcontact R)) :
  length x = length m -> Forall (fun v => (v < length m)%nat) vars ->
  Forall (tc_ok (length vars) false) cs -> Forall (fun c => 0 <= tc_coeff c) cs ->
  exists es, exprs_single debug cs vars x = Ok es /\
    (forall y, map (fun p => aff_value (fst (fst p)) y) es = map (fun c => tc_dist c + lin vars x y false c) cs) /\
    (let s := build m (cost_ops es) in
     min_over_aux (length (fst s)) (obj_feasible (length m) s) (quad_value (co_quad (snd s))) x (coll_cost cs)) /\
    ccnts_violations (cnt_convex es) x = coll_values cs.
Proof.
  intros Hx Hv H Hc. destruct (exprs_single_ok debug (length m) cs vars x Hv H) as (es & E & F). exists es. split; [exact E|].
  assert (Z : forall a : R, Rabs a <= 0 -> a = 0) by (intros a Ha; unfold Rabs in Ha; destruct Rcase_abs; lra).
  split; [|split].
  - intros y. clear - F Z. induction F as [|c p cs es (_ & _ & _ & H) F IH]; cbn [map]; [reflexivity|]. rewrite IH. f_equal.
    specialize (Z _ (H y)). lra.
  - destruct (hinge_model m x _ _ cs es Hx F Hc) as (v & Hm & Hb). rewrite Rmult_0_l in Hb. apply Z in Hb.
    replace (coll_cost cs) with v; [exact Hm|]. rewrite coll_cost_R. apply Rminus_diag_uniq in Hb. rewrite Hb.
    apply rsum_ext. intros c _. rewrite lin_self, Rplus_0_r. reflexivity.
  - pose proof (constraint_model x _ _ _ cs es F Hc) as G. unfold coll_values. clear - G Z.
    induction G as [|c v cs vs H G IH]; cbn [map]; [reflexivity|]. rewrite IH. f_equal.
    rewrite Rmult_0_l, lin_self, Rplus_0_r in H. apply Z in H. rewrite pospart_Rmax. rnum. lra.
Qed.
Print Assumptions C68_single_step.

(** Continuous, one end free: within 2e-7 of the sum of the magnitudes of the joint values, because
    cleanupAff drops coefficients below 1e-7 of an expression in the joint values (not the
    displacement).  [t] selects the end: false for the start, true for the end. *)
Theorem C68_one_free (debug t : bool) (m : list (option R * option R)) (vars : list nat) (x : list R) (cs : list (tcontact R)) :
  length x = length m -> Forall (fun v => (v < length m)%nat) vars ->
  Forall (tc_ok (length vars) t) cs -> Forall (fun c => 0 <= tc_coeff c) cs ->
  let tol y := 2 / 10 ^ 7 * rsum (fun v => Rabs (nth v y 0)) vars in
  exists es, exprs_one_free debug t cs vars x = Ok es /\
    Forall2 (fun c p => forall y, Rabs (aff_value (fst (fst p)) y - (tc_dist c + lin vars x y t c)) <= tol y) cs es /\
    (let s := build m (cost_ops es) in
     exists v, min_over_aux (length (fst s)) (obj_feasible (length m) s) (quad_value (co_quad (snd s))) x v /\
       Rabs (v - coll_cost cs) <= tol x * rsum (@tc_coeff R) cs) /\
    Forall2 (fun c v => Rabs (v - tc_coeff c * Rmax (tc_margin c - tc_dist c) 0) <= tol x * tc_coeff c) cs
      (ccnts_violations (cnt_convex es) x).
Proof.
  intros Hx Hv H Hc tol. destruct (exprs_one_free_ok debug t (length m) cs vars x Hv H) as (es & E & F). exists es. split; [exact E|].
  split; [|split].
  - clear - F. induction F as [|c p cs es (_ & _ & _ & H) F IH]; constructor; auto.
  - destruct (hinge_model m x _ _ cs es Hx F Hc) as (v & Hm & Hb). exists v. split; [exact Hm|].
    rewrite coll_cost_R. rewrite (rsum_ext _ (fun c => tc_coeff c * Rmax (tc_margin c - tc_dist c) 0)) in Hb; [exact Hb|].
    intros c _. rewrite lin_self, Rplus_0_r. reflexivity.
  - pose proof (constraint_model x _ _ _ cs es F Hc) as G. clear - G. induction G as [|c v cs vs H G IH]; constructor; auto.
    rewrite lin_self, Rplus_0_r in H. exact H.
Qed.
Print Assumptions C68_one_free.

(** Continuous, both ends free. *)
Theorem C68_both_free (debug : bool) (m : list (option R * option R)) (vars0 vars1 : list nat) (x : list R) (cs : list (tcontact R)) :
  length x = length m -> Forall (fun v => (v < length m)%nat) vars0 -> Forall (fun v => (v < length m)%nat) vars1 ->
  Forall (tc_ok (length vars0) false) cs -> Forall (tc_ok (length vars1) true) cs -> Forall (fun c => 0 <= tc_coeff c) cs ->
  let tol y := 2 / 10 ^ 7 * rsum (fun v => Rabs (nth v y 0)) (vars0 ++ vars1) in
  exists es, exprs_both_free debug cs vars0 vars1 x = Ok es /\
    Forall2 (fun c p => forall y, Rabs (aff_value (fst (fst p)) y - (tc_dist c + lin vars0 x y false c + lin vars1 x y true c)) <= tol y) cs es /\
    (let s := build m (cost_ops es) in
     exists v, min_over_aux (length (fst s)) (obj_feasible (length m) s) (quad_value (co_quad (snd s))) x v /\
       Rabs (v - coll_cost cs) <= tol x * rsum (@tc_coeff R) cs) /\
    Forall2 (fun c v => Rabs (v - tc_coeff c * Rmax (tc_margin c - tc_dist c) 0) <= tol x * tc_coeff c) cs
      (ccnts_violations (cnt_convex es) x).
Proof.
  intros Hx Hv0 Hv1 H0 H1 Hc tol.
  destruct (exprs_both_free_ok debug (length m) cs vars0 vars1 x Hv0 Hv1 H0 H1) as (es & E & F). exists es. split; [exact E|].
  split; [|split].
  - clear - F. induction F as [|c p cs es (_ & _ & _ & H) F IH]; constructor; auto.
  - destruct (hinge_model m x _ _ cs es Hx F Hc) as (v & Hm & Hb). exists v. split; [exact Hm|].
    rewrite coll_cost_R. rewrite (rsum_ext _ (fun c => tc_coeff c * Rmax (tc_margin c - tc_dist c) 0)) in Hb; [exact Hb|].
    intros c _. rewrite !lin_self, !Rplus_0_r. reflexivity.
  - pose proof (constraint_model x _ _ _ cs es F Hc) as G. clear - G. induction G as [|c v cs vs H G IH]; constructor; auto.
    rewrite !lin_self, !Rplus_0_r in H. exact H.
Qed.
Print Assumptions C68_both_free.

(** For continuous contacts the weights of the two time steps add up to one: displacing both states
    alike, with the same gradient at both, changes the modelled distance by gradient times displacement. *)
Theorem C68_common_displacement (vars0 vars1 : list nat) (x y : list R) (c : tcontact R) (d : list R) :
  length vars0 = length d -> length vars1 = length d ->
  (forall k, (k < length d)%nat -> nth (nth k vars0 0%nat) y 0 - nth (nth k vars0 0%nat) x 0 = nth k d 0) ->
  (forall k, (k < length d)%nat -> nth (nth k vars1 0%nat) y 0 - nth (nth k vars1 0%nat) x 0 = nth k d 0) ->
  tc_row c true = tc_row c false -> (forall i, side (tc_cc c) i <> CCNone) ->
  (forall i, length (side (tc_row c false) i) = length d) ->
  lin vars0 x y false c + lin vars1 x y true c =
    (if fst (tc_active c) then rsum (fun p => fst p * snd p) (combine (fst (tc_row c false)) d) else 0) +
    (if snd (tc_active c) then rsum (fun p => fst p * snd p) (combine (snd (tc_row c false)) d) else 0).
Proof.
  intros L0 L1 D0 D1 Er Hcc Hl.
  assert (G : forall vars (g : list R), length vars = length d -> length g = length d ->
    (forall k, (k < length d)%nat -> nth (nth k vars 0%nat) y 0 - nth (nth k vars 0%nat) x 0 = nth k d 0) ->
    rsum (fun p => fst p * (nth (snd p) y 0 - nth (snd p) x 0)) (combine g vars) = rsum (fun p => fst p * snd p) (combine g d)).
  { clear. intros vars g. revert vars g. induction d as [|e d IH]; intros [|v vars] [|a g] H1 H2 H; cbn in *; try lia; [reflexivity|].
    rewrite !rsum_cons. cbn [fst snd]. rewrite (H 0%nat) by lia. f_equal. apply IH; try lia.
    intros k Hk. apply (H (S k)). lia. }
  unfold lin, lin_link, tsc. rewrite Er. pose proof (Hcc false) as A. pose proof (Hcc true) as B.
  pose proof (Hl false) as La. pose proof (Hl true) as Lb. unfold side in *.
  rewrite !(G vars0), !(G vars1) by auto.
  destruct (fst (tc_cc c)) eqn:Ca, (snd (tc_cc c)) eqn:Cb; try congruence; cbn [cceqb];
  destruct (fst (tc_active c)), (snd (tc_active c)); ring.
Qed.
Print Assumptions C68_common_displacement.

(** Without assertions, a contact of which neither link moves shifts the expressions of the
    following contacts to the wrong distances: here the only expression is attached to the distance
    of the first contact, and the second contact has none.  With assertions, this is an abort. *)
Definition still : tcontact R := {| tc_dist := 1; tc_margin := 0; tc_coeff := 1; tc_active := (false, false);
  tc_cc := (CCNone, CCNone); tc_time := (0, 0); tc_row := fun _ => ([0], [0]) |}.
Definition moving : tcontact R := {| tc_dist := -1; tc_margin := 0; tc_coeff := 1; tc_active := (true, false);
  tc_cc := (CCNone, CCNone); tc_time := (0, 0); tc_row := fun _ => ([1], [0]) |}.
Theorem C68_misaligned_refuted :
  (exists e, exprs_single false [still; moving] [0%nat] [0] = Ok [e] /\ aff_value (fst (fst e)) [0] = 1 /\
     ccnts_violations (cnt_convex [e]) [0] = [0]) /\
  coll_values [still; moving] = [0; 1] /\
  exprs_single true [still; moving] [0%nat] [0] = Undef.
Proof.
  split; [|split].
  - eexists. split; [reflexivity|]. cbn. rnum. split; [ring|]. unfold ccnts_violations. cbn. rnum.
    f_equal. rewrite pospart_Rmax. unfold Rmax. destruct Rle_dec; lra.
  - unfold coll_values. cbn [map still moving tc_dist tc_margin tc_coeff]. rewrite !pospart_Rmax. rnum.
    unfold Rmax. repeat destruct Rle_dec; try lra. f_equal; [lra|]. f_equal. lra.
  - reflexivity.
Qed.
Print Assumptions C68_misaligned_refuted.

Definition swept : tcontact R := {| tc_dist := -1; tc_margin := 1/2; tc_coeff := 3; tc_active := (true, true);
  tc_cc := (CCBetween, CCTime1); tc_time := (1/4, 1); tc_row := fun _ => ([1; 2], [-1; 0]) |}.
Example C68_ex : tc_ok 2 false swept /\ tc_ok 2 true swept /\ 0 <= tc_coeff swept /\
  lin [0; 1]%nat [0; 0; 0; 0] [1; 1; 0; 0] false swept = 9/4 /\ coll_cost [swept] = 9/2.
Proof.
  assert (A : forall t, tc_ok 2 t swept).
  { intros t. split; [reflexivity|]. intros [|] _; cbn; (split; [reflexivity|intros _; lra]). }
  split; [apply A|]. split; [apply A|]. split; [cbn; lra|]. split.
  - unfold lin, lin_link, tsc, rsum. cbn. lra.
  - rewrite coll_cost_R. unfold rsum. cbn. unfold Rmax. destruct Rle_dec; lra.
Qed.
