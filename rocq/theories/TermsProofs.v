(** * Proofs for the collision terms *)
From Coq Require Import List ZArith Bool Arith Reals Lra Lia.
From Verif Require Import Num NumFacts RSums Common ScoExprModel ScoExprProofs ModelingModel ModelingSpec ModelingProofs CollisionModel TermsModel.
Import ListNotations.
Local Open Scope R_scope.

(** ** the cache *)
Section C.
  Context {X V : Type} (hash : X -> Z) (compute : X -> V).

  Lemma set_nth_length {A} (l : list A) i a : length (set_nth l i a) = length l.
  Proof. revert i; induction l; intros [|i]; cbn; auto. Qed.
  Lemma set_nth_nth {A} (l : list A) i a d j : (i < length l)%nat ->
    nth j (set_nth l i a) d = if (j =? i)%nat then a else nth j l d.
  Proof.
    revert i j; induction l as [|x l IH]; intros i j H; [cbn in H; lia|].
    destruct i as [|i], j as [|j]; cbn; auto. apply IH. cbn in H. lia.
  Qed.
  Lemma sc_find_spec ks k : match sc_find ks k with
    | Some i => (i < length ks)%nat /\ nth i ks 0%Z = k
    | None => ~ In k ks end.
  Proof.
    induction ks as [|k' ks IH]; cbn; [tauto|]. destruct (Z.eqb_spec k' k) as [->|H]; [split; [lia|reflexivity]|].
    destruct (sc_find ks k) as [i|]; cbn; [destruct IH; split; [lia|auto]|]. intros [?|?]; auto.
  Qed.

  (** every slot is untouched, or holds the results of some state in [P] under its hash *)
  Definition sc_inv (n : nat) (P : X -> Prop) (c : scache V) : Prop :=
    length (sc_keys c) = n /\ length (sc_vals c) = n /\ (sc_m c < n)%nat /\
    forall i, (i < n)%nat -> (nth i (sc_keys c) 0%Z = 0%Z /\ nth i (sc_vals c) None = None) \/
      exists y, P y /\ nth i (sc_keys c) 0%Z = hash y /\ nth i (sc_vals c) None = Some (compute y).

  Lemma sc_new_inv n (P : X -> Prop) : (0 < n)%nat -> sc_inv n P (sc_new n).
  Proof.
    intros H. unfold sc_inv, sc_new; cbn. rewrite !repeat_length. split; [reflexivity|]. split; [reflexivity|]. split; [exact H|].
    intros i Hi. left. split; [clear|clear].
    - revert i; induction n; intros [|i]; cbn; auto.
    - revert i; induction n; intros [|i]; cbn; auto.
  Qed.

  Lemma cached_ok n (P : X -> Prop) c x : (0 < n)%nat -> sc_inv n P c -> P x ->
    (forall y z, P y -> P z -> hash y = hash z -> compute y = compute z) -> (forall y, P y -> hash y <> 0%Z) ->
    exists c' b, cached hash compute c x = Ok (c', compute x, b) /\ sc_inv n P c'.
  Proof.
    intros Hn (L1 & L2 & Hm & Hs) Hx Hinj Hnz. unfold cached, sc_get.
    pose proof (sc_find_spec (sc_keys c) (hash x)) as F. destruct (sc_find (sc_keys c) (hash x)) as [i|].
    - destruct F as [F1 F2]. destruct (Hs i) as [[H1 H2]|(y & Py & H1 & H2)]; [lia| |].
      + exfalso. apply (Hnz x Hx). congruence.
      + rewrite H2. exists c, false. rewrite (Hinj y x) by (auto; congruence). split; [reflexivity|]. unfold sc_inv. auto.
    - unfold sc_put. rewrite L1, (proj2 (Nat.ltb_lt _ _)) by exact Hm. cbn [obind]. eexists; exists true. split; [reflexivity|].
      unfold sc_inv. cbn [sc_m sc_keys sc_vals]. rewrite !set_nth_length. split; [exact L1|]. split; [exact L2|]. split.
      + destruct (Nat.eqb_spec (S (sc_m c)) n); lia.
      + intros i Hi. rewrite !set_nth_nth by lia. destruct (Nat.eqb_spec i (sc_m c)); [right; exists x; auto|apply Hs, Hi].
  Qed.

  Lemma queries_ok n (P : X -> Prop) : (0 < n)%nat ->
    (forall y z, P y -> P z -> hash y = hash z -> compute y = compute z) -> (forall y, P y -> hash y <> 0%Z) ->
    forall xs c, sc_inv n P c -> Forall P xs ->
    exists c' vs, queries hash compute c xs = Ok (c', vs) /\ map fst vs = map compute xs /\ sc_inv n P c'.
  Proof.
    intros Hn Hinj Hnz xs. induction xs as [|x xs IH]; intros c Hc HP; [exists c, []; cbn; auto|].
    inversion_clear HP. destruct (cached_ok n P c x) as (c1 & b & E & Hc1); auto.
    destruct (IH c1) as (c2 & vs & E2 & M & Hc2); auto. exists c2, ((compute x, b) :: vs). cbn [queries obind].
    rewrite E. cbn [obind]. rewrite E2. cbn [obind map fst]. rewrite M. auto.
  Qed.
End C.

(** pigeonhole *)
Lemma pigeonhole (N : nat) (h : nat -> nat) : (forall i, (i <= N)%nat -> (h i < N)%nat) ->
  exists i j, (i < j <= N)%nat /\ h i = h j.
Proof.
  revert h; induction N as [|N IH]; intros h H; [specialize (H 0%nat); lia|].
  assert (D : (exists i, (i <= N)%nat /\ h i = h (S N)) \/ forall i, (i <= N)%nat -> h i <> h (S N)).
  { generalize (h (S N)) as v. intros v. clear. induction N as [|n IHn].
    - destruct (Nat.eq_dec (h 0%nat) v) as [E|E]; [left; exists 0%nat; auto|right; intros i Hi; assert (i = 0)%nat by lia; subst; auto].
    - destruct IHn as [(i & Hi & E)|Hn]; [left; exists i; auto|].
      destruct (Nat.eq_dec (h (S n)) v) as [E|E]; [left; exists (S n); auto|].
      right. intros i Hi. destruct (Nat.eq_dec i (S n)) as [->|]; auto. apply Hn. lia. }
  destruct D as [(i & Hi & E)|D]; [exists i, (S N); split; [lia|exact E]|].
  set (h' := fun i => if (h i =? N)%nat then h (S N) else h i).
  destruct (IH h') as (i & j & Hij & E).
  - intros i Hi. unfold h'. assert (h i < S N)%nat by (apply H; lia). assert (h (S N) < S N)%nat by (apply H; lia).
    specialize (D i Hi). destruct (Nat.eqb_spec (h i) N); lia.
  - exists i, j. split; [lia|]. unfold h' in E. pose proof (D i) as Di. pose proof (D j) as Dj.
    destruct (Nat.eqb_spec (h i) N), (Nat.eqb_spec (h j) N); try congruence.
    + exfalso. apply Dj; [lia|congruence].
    + exfalso. apply Di; [lia|congruence].
Qed.

(** ** expressions *)
(** what the linearised distance of a contact should be: scaled gradients times displacement *)
Definition tsc (c : tcontact R) (t i : bool) : R :=
  if cceqb (side (tc_cc c) i) CCNone then 1 else if t then side (tc_time c) i else 1 - side (tc_time c) i.
Definition lin_link (vars : list nat) (x y : list R) (t : bool) (c : tcontact R) (i : bool) : R :=
  if side (tc_active c) i
  then tsc c t i * rsum (fun p => fst p * (nth (snd p) y 0 - nth (snd p) x 0)) (combine (side (tc_row c t) i) vars) else 0.
Definition lin (vars : list nat) (x y : list R) (t : bool) (c : tcontact R) : R :=
  lin_link vars x y t c false + lin_link vars x y t c true.

(** contacts of the expected shape *)
Definition tc_ok (nv : nat) (t : bool) (c : tcontact R) : Prop :=
  (fst (tc_active c) || snd (tc_active c)) = true /\
  (forall i, side (tc_active c) i = true -> length (side (tc_row c t) i) = nv /\
     (side (tc_cc c) i <> CCNone -> 0 <= side (tc_time c) i <= 1)).

Lemma tscale_R debug c t i : (side (tc_cc c) i <> CCNone -> 0 <= side (tc_time c) i <= 1) -> tscale debug c t i = Ok (tsc c t i).
Proof.
  intros H. unfold tscale, tsc. destruct (side (tc_cc c) i) eqn:E; cbn [cceqb]; auto;
  (destruct H as [H1 H2]; [discriminate|]); rnum; rewrite (proj2 (Rleb_true _ _)) by exact H1;
  rewrite (proj2 (Rleb_true _ _)) by exact H2; rewrite andb_false_r; reflexivity.
Qed.

Lemma inc_link_value debug vars x t c (e : aff R) i : wf_aff e ->
  (side (tc_active c) i = true -> length (side (tc_row c t) i) = length vars /\ (side (tc_cc c) i <> CCNone -> 0 <= side (tc_time c) i <= 1)) ->
  exists e', inc_link debug vars x t c (Ok e) i = Ok e' /\ wf_aff e' /\
    (forall n, Forall (fun v => (v < n)%nat) (a_vars e) -> Forall (fun v => (v < n)%nat) vars -> Forall (fun v => (v < n)%nat) (a_vars e')) /\
    (forall f, (forall v, 0 <= f v) -> rsum f (a_vars e') <= rsum f (a_vars e) + rsum f vars) /\
    forall y, aff_value e' y = aff_value e y + lin_link vars x y t c i.
Proof.
  intros He H. unfold inc_link, lin_link. cbn [obind]. destruct (side (tc_active c) i).
  - destruct (H eq_refl) as [L Ht]. rewrite tscale_R by exact Ht. cbn [obind]. eexists. split; [reflexivity|].
    set (s := tsc c t i). set (g := side (tc_row c t) i) in *.
    assert (W : wf_aff (var_dot (vscale s g) vars)) by (unfold wf_aff, var_dot; cbn; unfold vscale; rewrite map_length; exact L).
    split; [apply (aff_inc_wf e (var_dot (vscale s g) vars)); auto|]. split.
    { intros n H1 H2. cbn. apply Forall_app. auto. }
    split. { intros f Hf. cbn. rewrite rsum_app. lra. }
    intros y. rewrite aff_inc_const_value, aff_inc_value by exact He. rewrite Rplus_assoc. f_equal.
    rewrite aff_value_sum. cbn [var_dot a_const a_coeffs a_vars]. rewrite vdot_get_vec. rnum.
    unfold vscale. rewrite !combine_map_l, !rsum_map. cbn [fst snd]. rewrite Rplus_0_l, <- rsum_scal, <- rsum_plus, <- rsum_scal.
    apply rsum_ext. intros p _. cbn [fst snd]. rnum. ring.
  - exists e. split; [reflexivity|]. split; [exact He|]. split; [auto|].
    split; [|intros y; ring]. intros f Hf. pose proof (rsum_nonneg f vars (fun v _ => Hf v)). lra.
Qed.

Lemma contact_expr debug vars x t c : tc_ok (length vars) t c ->
  exists e, fold_left (inc_link debug vars x t c) [false; true] (Ok (aff_const nzero)) = Ok e /\ wf_aff e /\
    (forall n, Forall (fun v => (v < n)%nat) vars -> Forall (fun v => (v < n)%nat) (a_vars e)) /\
    (forall f, (forall v, 0 <= f v) -> rsum f (a_vars e) <= 2 * rsum f vars) /\
    forall y, aff_value e y = lin vars x y t c.
Proof.
  intros [_ H]. cbn [fold_left].
  destruct (inc_link_value debug vars x t c (aff_const nzero) false) as (e1 & E1 & W1 & V1 & B1 & S1); [reflexivity|apply H|].
  rewrite E1. destruct (inc_link_value debug vars x t c e1 true W1) as (e2 & E2 & W2 & V2 & B2 & S2); [apply H|].
  exists e2. split; [exact E2|]. split; [exact W2|]. split; [intros n Hn; apply V2; [apply V1; [constructor|exact Hn]|exact Hn]|].
  split. { intros f Hf. specialize (B1 f Hf). specialize (B2 f Hf). cbn [aff_const a_vars] in B1. rewrite rsum_nil in B1. lra. }
  intros y. rewrite S2, S1, aff_const_value. unfold lin. rnum. ring.
Qed.

Lemma to_exprs_ok debug cs vars x t : Forall (tc_ok (length vars) t) cs ->
  exists es, to_exprs debug cs vars x t = Ok es /\
  Forall2 (fun c p => snd (fst p) = tc_margin c /\ snd p = tc_coeff c /\ wf_aff (fst (fst p)) /\
    (forall n, Forall (fun v => (v < n)%nat) vars -> Forall (fun v => (v < n)%nat) (a_vars (fst (fst p)))) /\
    (forall f, (forall v, 0 <= f v) -> rsum f (a_vars (fst (fst p))) <= 2 * rsum f vars) /\
    forall y, aff_value (fst (fst p)) y = lin vars x y t c) cs es.
Proof.
  induction 1 as [|c cs Hc Hcs IH]; [exists []; split; [reflexivity|constructor]|].
  destruct IH as (es & E & F). destruct (contact_expr debug vars x t c Hc) as (e & E1 & W & Vs & Bd & S).
  cbn [to_exprs]. rewrite E1. cbn [obind]. rewrite E. cbn [obind]. destruct Hc as [-> _].
  eexists. split; [reflexivity|]. constructor; auto 7.
Qed.

(** expressions with the margins and coefficients of the contacts, linear up to an error *)
Definition exprs_for (n : nat) (model : tcontact R -> list R -> R) (bound : list R -> R)
    (cs : list (tcontact R)) (es : list (aff R * R * R)) : Prop :=
  Forall2 (fun c p => snd (fst p) = tc_margin c /\ snd p = tc_coeff c /\ aff_in n (fst (fst p)) /\
    forall y, Rabs (aff_value (fst (fst p)) y - model c y) <= bound y) cs es.

Lemma Forall2_map_combine {A B C} (P : A -> C -> Prop) (Q : A -> B -> Prop) (f : A * B -> C) l l' :
  Forall2 Q l l' -> (forall a b, Q a b -> P a (f (a, b))) -> Forall2 P l (map f (combine l l')).
Proof. induction 1; cbn; constructor; auto. Qed.

Lemma aff_in_cleanup n (a : aff R) : aff_in n a -> aff_in n (aff_cleanup a).
Proof.
  intros [H1 H2]. split; [apply (cleanup_terms a H1)|]. cbn. rewrite Forall_map, Forall_forall. intros [c v] H.
  apply filter_In in H as [H _]. apply in_combine_r in H. rewrite Forall_forall in H2. cbn. auto.
Qed.
Lemma cleanup_close (e : aff R) y : Rabs (aff_value (aff_cleanup e) y - aff_value e y) <=
  1 / 10 ^ 7 * rsum (fun v => Rabs (nth v y 0)) (a_vars e).
Proof.
  rewrite cleanup_value. replace (_ - _ - _) with (- rsum (tm y) (dropped e)) by ring. rewrite Rabs_Ropp.
  exact (small_terms_bound (a_coeffs e) (a_vars e) y).
Qed.

Lemma exprs_single_ok debug n cs vars x : Forall (fun v => (v < n)%nat) vars -> Forall (tc_ok (length vars) false) cs ->
  exists es, exprs_single debug cs vars x = Ok es /\
  exprs_for n (fun c y => tc_dist c + lin vars x y false c) (fun _ => 0) cs es.
Proof.
  intros Hv H. destruct (to_exprs_ok debug cs vars x false H) as (es & E & F). unfold exprs_single. rewrite E. cbn [obind].
  assert (L : length cs = length es) by (clear - F; induction F; cbn; auto).
  unfold sizes_ok. rewrite L, Nat.eqb_refl, orb_true_r. eexists. split; [reflexivity|].
  eapply Forall2_map_combine; [exact F|]. intros c [[e m] k] (H1 & H2 & W & V & _ & S). cbn [fst snd] in *.
  split; [exact H1|]. split; [exact H2|]. split; [split; [exact W|apply V, Hv]|].
  intros y. rewrite aff_inc_const_value, S. replace (_ - _) with 0 by ring. rewrite Rabs_R0. lra.
Qed.

Lemma exprs_one_free_ok debug t n cs vars x : Forall (fun v => (v < n)%nat) vars -> Forall (tc_ok (length vars) t) cs ->
  exists es, exprs_one_free debug t cs vars x = Ok es /\
  exprs_for n (fun c y => tc_dist c + lin vars x y t c) (fun y => 2 / 10 ^ 7 * rsum (fun v => Rabs (nth v y 0)) vars) cs es.
Proof.
  intros Hv H. destruct (to_exprs_ok debug cs vars x t H) as (es & E & F). unfold exprs_one_free. rewrite E. cbn [obind].
  assert (L : length cs = length es) by (clear - F; induction F; cbn; auto).
  unfold sizes_ok. rewrite L, Nat.eqb_refl, orb_true_r. eexists. split; [reflexivity|].
  eapply Forall2_map_combine; [exact F|]. intros c [[e m] k] (H1 & H2 & W & V & B & S). cbn [fst snd] in *.
  split; [exact H1|]. split; [exact H2|]. split.
  { apply aff_in_cleanup, aff_in_inc; [repeat constructor|split; [exact W|apply V, Hv]]. }
  intros y. pose proof (cleanup_close (aff_inc (aff_const (tc_dist c)) e) y) as C.
  rewrite (aff_inc_value (aff_const (tc_dist c)) e), aff_const_value, S in C by reflexivity.
  eapply Rle_trans; [exact C|]. cbn [aff_inc aff_const a_vars app].
  specialize (B (fun v => Rabs (nth v y 0)) (fun v => Rabs_pos _)). lra.
Qed.

Lemma Forall2_combine3 {A B C} (P : A -> B -> Prop) (Q : A -> C -> Prop) l l1 l2 :
  Forall2 P l l1 -> Forall2 Q l l2 -> Forall2 (fun a bc => P a (fst bc) /\ Q a (snd bc)) l (combine l1 l2).
Proof. intros H; revert l2; induction H; intros l2 H2; inversion_clear H2; cbn; constructor; auto. Qed.

Lemma exprs_both_free_ok debug n cs vars0 vars1 x : Forall (fun v => (v < n)%nat) vars0 -> Forall (fun v => (v < n)%nat) vars1 ->
  Forall (tc_ok (length vars0) false) cs -> Forall (tc_ok (length vars1) true) cs ->
  exists es, exprs_both_free debug cs vars0 vars1 x = Ok es /\
  exprs_for n (fun c y => tc_dist c + lin vars0 x y false c + lin vars1 x y true c)
    (fun y => 2 / 10 ^ 7 * rsum (fun v => Rabs (nth v y 0)) (vars0 ++ vars1)) cs es.
Proof.
  intros Hv0 Hv1 H0 H1. destruct (to_exprs_ok debug cs vars0 x false H0) as (es0 & E0 & F0).
  destruct (to_exprs_ok debug cs vars1 x true H1) as (es1 & E1 & F1). unfold exprs_both_free. rewrite E0. cbn [obind]. rewrite E1. cbn [obind].
  assert (L : length es0 = length cs) by (clear - F0; induction F0; cbn; auto).
  unfold sizes_ok. rewrite L, Nat.eqb_refl, orb_true_r. eexists. split; [reflexivity|].
  eapply Forall2_map_combine; [exact (Forall2_combine3 _ _ _ _ _ F0 F1)|].
  intros c [[[e m] k] [[e' m'] k']] [(A1 & A2 & W & V & B & S) (_ & _ & W' & V' & B' & S')]. cbn [fst snd] in *.
  assert (In1 : aff_in n (aff_inc (aff_const (tc_dist c)) e)) by (apply aff_in_inc; [repeat constructor|split; [exact W|apply V, Hv0]]).
  split; [exact A1|]. split; [exact A2|]. split.
  { apply aff_in_cleanup, aff_in_inc; [exact In1|split; [exact W'|apply V', Hv1]]. }
  intros y. pose proof (cleanup_close (aff_inc (aff_inc (aff_const (tc_dist c)) e) e') y) as C.
  rewrite (aff_inc_value (aff_inc (aff_const (tc_dist c)) e) e') in C by apply In1.
  rewrite (aff_inc_value (aff_const (tc_dist c)) e), aff_const_value, S, S' in C by reflexivity.
  eapply Rle_trans; [exact C|]. cbn [aff_inc aff_const a_vars app]. rewrite !rsum_app.
  specialize (B (fun v => Rabs (nth v y 0)) (fun v => Rabs_pos _)). specialize (B' (fun v => Rabs (nth v y 0)) (fun v => Rabs_pos _)). lra.
Qed.

Lemma lin_self vars x t c : lin vars x x t c = 0.
Proof.
  unfold lin, lin_link. assert (Z : forall l : list (R * nat), rsum (fun p => fst p * (nth (snd p) x 0 - nth (snd p) x 0)) l = 0).
  { intros l. rewrite (rsum_ext _ (fun _ => 0)); [apply rsum_zero|]. intros; ring. }
  rewrite !Z. destruct (side _ false), (side _ true); ring.
Qed.

Lemma coll_cost_R cs : coll_cost cs = rsum (fun c => tc_coeff c * Rmax (tc_margin c - tc_dist c) 0) cs.
Proof.
  unfold coll_cost, coll_values. rnum.
  assert (F : forall l (a : R), fold_left Rplus l a = a + Rsum l).
  { induction l as [|y l IH]; intros a; cbn; [ring|]. rewrite IH. ring. }
  rewrite F, Rplus_0_l. unfold rsum. f_equal. apply map_ext. intros c. rewrite pospart_Rmax. ring.
Qed.

Lemma viol_in n p : aff_in n (fst (fst p)) -> aff_in n (viol_of p).
Proof. intros H. unfold viol_of, aff_dec. apply aff_in_inc; [repeat constructor|]. apply aff_in_scale, H. Qed.
Lemma viol_value p (y : list R) : aff_value (viol_of p) y = snd (fst p) - aff_value (fst (fst p)) y.
Proof. unfold viol_of. rewrite aff_dec_value, aff_const_value by reflexivity. reflexivity. Qed.

Lemma Rmax0_close a b d : Rabs (a - b) <= d -> Rabs (Rmax a 0 - Rmax b 0) <= d.
Proof. unfold Rmax, Rabs. repeat destruct Rle_dec; repeat destruct Rcase_abs; lra. Qed.

(** the hinge model represents the cost up to the error of the expressions *)
Lemma hinge_model (m : list (option R * option R)) x model bound cs es : length x = length m ->
  exprs_for (length m) model bound cs es -> Forall (fun c => 0 <= tc_coeff c) cs ->
  let s := build m (cost_ops es) in
  exists v, min_over_aux (length (fst s)) (obj_feasible (length m) s) (quad_value (co_quad (snd s))) x v /\
    Rabs (v - rsum (fun c => tc_coeff c * Rmax (tc_margin c - model c x) 0) cs) <= bound x * rsum (@tc_coeff R) cs.
Proof.
  intros Hx F Hc s. exists (rsum (op_exact x) (cost_ops es)). split.
  - apply build_min; [exact Hx|]. unfold cost_ops. rewrite Forall_map, Forall_forall. intros p Hp. cbn.
    assert (G : exists c, In c cs /\ snd p = tc_coeff c /\ aff_in (length m) (fst (fst p))).
    { clear - F Hp. induction F as [|c q cs es H F IH]; [destruct Hp|]. destruct Hp as [<-|Hp].
      - exists c. cbn. tauto.
      - destruct IH as (c' & ? & ?); auto. exists c'. cbn. tauto. }
    destruct G as (c & Hin & E & A). split; [apply viol_in, A|]. rewrite E. rewrite Forall_forall in Hc. auto.
  - clear s Hx. unfold cost_ops. rewrite rsum_map. cbn [op_exact]. induction F as [|c p cs es (H1 & H2 & _ & H3) F IH].
    + rewrite !rsum_nil. rewrite Rminus_0_r, Rabs_R0. lra.
    + inversion_clear Hc. specialize (IH H0). rewrite !rsum_cons. rewrite Rmult_plus_distr_l.
      replace (_ - _) with (snd p * Rmax (aff_value (viol_of p) x) 0 - tc_coeff c * Rmax (tc_margin c - model c x) 0 +
        (rsum (fun a => snd a * Rmax (aff_value (viol_of a) x) 0) es - rsum (fun c0 => tc_coeff c0 * Rmax (tc_margin c0 - model c0 x) 0) cs)) by ring.
      eapply Rle_trans; [apply Rabs_triang|]. apply Rplus_le_compat; [|exact IH].
      rewrite viol_value, H1, H2, <- Rmult_minus_distr_l, Rabs_mult, (Rabs_right (tc_coeff c)) by lra.
      rewrite (Rmult_comm (bound x)). apply Rmult_le_compat_l; [lra|]. apply Rmax0_close.
      specialize (H3 x). replace (_ - _) with (- (aff_value (fst (fst p)) x - model c x)) by ring. rewrite Rabs_Ropp. exact H3.
Qed.

Lemma constraint_model x model bound n cs es : exprs_for n model bound cs es -> Forall (fun c => 0 <= tc_coeff c) cs ->
  Forall2 (fun c v => Rabs (v - tc_coeff c * Rmax (tc_margin c - model c x) 0) <= bound x * tc_coeff c) cs
    (ccnts_violations (cnt_convex es) x).
Proof.
  intros F Hc. unfold ccnts_violations, cnt_convex. cbn [cc_eqs cc_ineqs map app]. rewrite map_map.
  induction F as [|c p cs es (H1 & H2 & _ & H3) F IH]; cbn [map]; [constructor|]. inversion_clear Hc. constructor; auto.
  rewrite pospart_Rmax, aff_scale_value, viol_value, H1, H2.
  replace (Rmax ((tc_margin c - aff_value (fst (fst p)) x) * tc_coeff c) 0) with (tc_coeff c * Rmax (tc_margin c - aff_value (fst (fst p)) x) 0)
    by (rewrite Rmax_scale by assumption; reflexivity).
  rewrite <- Rmult_minus_distr_l, Rabs_mult, (Rabs_right (tc_coeff c)) by lra.
  rewrite (Rmult_comm (bound x)). apply Rmult_le_compat_l; [lra|]. apply Rmax0_close.
  specialize (H3 x). replace (_ - _) with (- (aff_value (fst (fst p)) x - model c x)) by ring. rewrite Rabs_Ropp. exact H3.
Qed.
