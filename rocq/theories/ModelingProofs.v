(** Proofs about the modelling layer (over the reals). *)
From Coq Require Import List ZArith Bool Arith Lia Reals Lra.
From Verif Require Import Num NumFacts RSums Common ScoExprModel ScoExprProofs ModelingModel ModelingSpec.
Import ListNotations.
Local Open Scope R_scope.

(** ** values only depend on the variables in range *)
Lemma aff_value_app (a : aff R) x z : Forall (fun v => (v < length x)%nat) (a_vars a) ->
  aff_value a (x ++ z) = aff_value a x.
Proof.
  intros H. rewrite !aff_value_sum. f_equal. apply rsum_ext. intros [c v] Hin. cbn.
  apply in_combine_r in Hin. rewrite Forall_forall in H. rewrite app_nth1 by (apply H; exact Hin). reflexivity.
Qed.
Lemma quad_value_app (q : quad R) x z : quad_in (length x) q -> quad_value q (x ++ z) = quad_value q x.
Proof.
  intros (_ & [_ Ha] & H1 & H2). rewrite !quad_value_sum, aff_value_app by exact Ha. f_equal.
  apply rsum_ext. intros [c [v w]] Hin. cbn. apply in_combine_r in Hin.
  pose proof (in_combine_l _ _ _ _ Hin) as Hv. pose proof (in_combine_r _ _ _ _ Hin) as Hw.
  rewrite Forall_forall in H1, H2. rewrite !app_nth1 by auto. reflexivity.
Qed.
Lemma aff_in_le n m a : (n <= m)%nat -> aff_in n a -> aff_in m a.
Proof. intros H [H1 H2]. split; [exact H1|]. eapply Forall_impl; [|exact H2]. cbn; intros; lia. Qed.
Lemma Forall_lt_le n m l : (n <= m)%nat -> Forall (fun v => (v < n)%nat) l -> Forall (fun v => (v < m)%nat) l.
Proof. intros H H2. eapply Forall_impl; [|exact H2]. cbn; intros; lia. Qed.
Lemma quad_in_le n m q : (n <= m)%nat -> quad_in n q -> quad_in m q.
Proof.
  intros H (H1 & H2 & H3 & H4). split; [exact H1|]. split; [eapply aff_in_le; eauto|].
  split; eapply Forall_lt_le; eauto.
Qed.

(** ** representation by minimisation over auxiliary variables *)
Definition Rep (n len : nat) (P : list R -> Prop) (g : list R -> R) (F : list R -> R) : Prop :=
  (n <= len)%nat /\
  (forall pt z, length pt = len -> (P (pt ++ z) <-> P pt) /\ g (pt ++ z) = g pt) /\
  (forall x, length x = n -> min_over_aux len P g x (F x)).

Lemma Rep_ext n len P P' g g' F F' : Rep n len P g F ->
  (forall pt, (len <= length pt)%nat -> (P pt <-> P' pt)) ->
  (forall pt, (len <= length pt)%nat -> g pt = g' pt) ->
  (forall x, length x = n -> F x = F' x) ->
  Rep n len P' g' F'.
Proof.
  intros (H1 & H2 & H3) HP Hg HF. split; [exact H1|]. split.
  - intros pt z Hl. destruct (H2 pt z Hl) as [A B]. split.
    + rewrite <- (HP pt) by lia. rewrite <- (HP (pt ++ z)) by (rewrite app_length; lia). exact A.
    + rewrite <- !Hg by (try rewrite app_length; lia). exact B.
  - intros x Hx. destruct (H3 x Hx) as [A (z & B & C & D)]. split.
    + intros z' Hz' HP'. rewrite <- HF, <- Hg by (try rewrite app_length; lia). apply A; [exact Hz'|].
      apply HP; [rewrite app_length; lia|exact HP'].
    + exists z. split; [exact B|]. split; [apply HP; [rewrite app_length; lia|exact C]|].
      rewrite <- HF, <- Hg by (try rewrite app_length; lia). exact D.
Qed.

(** an expression over the problem variables *)
Lemma Rep_add n len P g F (e : list R -> R) : Rep n len P g F ->
  (forall x z, length x = n -> e (x ++ z) = e x) ->
  Rep n len P (fun pt => g pt + e pt) (fun x => F x + e x).
Proof.
  intros (H1 & H2 & H3) He. split; [exact H1|]. split.
  - intros pt z Hl. destruct (H2 pt z Hl) as [A B]. split; [exact A|]. rewrite B. f_equal.
    rewrite <- (firstn_skipn n pt), <- app_assoc, !He by (rewrite firstn_length; lia). reflexivity.
  - intros x Hx. destruct (H3 x Hx) as [A (z & B & C & D)]. split.
    + intros z' Hz' HP. rewrite He by exact Hx. specialize (A z' Hz' HP). lra.
    + exists z. repeat split; auto. rewrite He, D by exact Hx. reflexivity.
Qed.

(** one auxiliary variable >= 0 bounded below by an affine expression *)
Lemma Rep_hinge n len P g F (a : aff R) c : Rep n len P g F -> aff_in n a -> 0 <= c ->
  Rep n (S len) (fun pt => P pt /\ 0 <= nth len pt 0 /\ aff_value a pt - nth len pt 0 <= 0)
    (fun pt => g pt + c * nth len pt 0) (fun x => F x + c * Rmax (aff_value a x) 0).
Proof.
  intros (H1 & H2 & H3) [Hw Ha] Hc. split; [lia|]. split.
  - intros pt z Hl. assert (Hp : exists q h, pt = q ++ [h] /\ length q = len).
    { destruct (exists_last (l := pt)) as (q & h & ->); [intros ->; discriminate|]. exists q, h. split; [reflexivity|].
      rewrite app_length in Hl. cbn in Hl. lia. }
    destruct Hp as (q & h & -> & Hq).
    destruct (H2 q ([h] ++ z) Hq) as [A B]. destruct (H2 q [h] Hq) as [A' B'].
    rewrite <- app_assoc. rewrite A, A', B, B'.
    rewrite !(aff_value_app a q) by (eapply Forall_lt_le; [|exact Ha]; lia).
    rewrite (app_nth2 q ([h] ++ z)), (app_nth2 q [h]) by lia. rewrite <- Hq, Nat.sub_diag. cbn. tauto.
  - intros x Hx. destruct (H3 x Hx) as [A (z & B & C & D)]. split.
    + intros z' Hz' (HP & Hh & Hi).
      destruct (exists_last (l := z')) as (z0 & h & ->). { intros ->. cbn in Hz'. lia. }
      rewrite app_length in Hz'. cbn in Hz'. rewrite app_assoc in *.
      assert (Hl : length (x ++ z0) = len) by (rewrite app_length; lia).
      destruct (H2 (x ++ z0) [h] Hl) as [P1 G1]. rewrite G1. apply P1 in HP.
      rewrite app_nth2, Hl, Nat.sub_diag in * by lia. cbn [nth] in *.
      rewrite <- app_assoc, aff_value_app in Hi by (rewrite Hx; exact Ha).
      specialize (A z0 ltac:(lia) HP).
      assert (Hm : Rmax (aff_value a x) 0 <= h) by (apply Rmax_lub; lra).
      pose proof (Rmult_le_compat_l c _ _ Hc Hm). lra.
    + exists (z ++ [Rmax (aff_value a x) 0]). split; [rewrite app_length; cbn; lia|].
      rewrite app_assoc. assert (Hl : length (x ++ z) = len) by (rewrite app_length; lia).
      destruct (H2 (x ++ z) [Rmax (aff_value a x) 0] Hl) as [P1 G1]. rewrite G1.
      rewrite app_nth2, Hl, Nat.sub_diag by lia. cbn [nth]. rewrite D.
      rewrite <- app_assoc, aff_value_app by (rewrite Hx; exact Ha).
      pose proof (Rmax_l (aff_value a x) 0). pose proof (Rmax_r (aff_value a x) 0).
      split; [|reflexivity]. split; [rewrite app_assoc; apply P1; exact C|]. lra.
Qed.

(** two auxiliary variables with a + neg - pos = 0 *)
Lemma Rep_abs n len P g F (a : aff R) c : Rep n len P g F -> aff_in n a -> 0 <= c ->
  Rep n (S (S len)) (fun pt => P pt /\ 0 <= nth len pt 0 /\ 0 <= nth (S len) pt 0 /\
                               aff_value a pt + nth len pt 0 - nth (S len) pt 0 = 0)
    (fun pt => g pt + (c * nth len pt 0 + c * nth (S len) pt 0)) (fun x => F x + c * Rabs (aff_value a x)).
Proof.
  intros (H1 & H2 & H3) [Hw Ha] Hc.
  assert (Hsplit : forall pt : list R, length pt = S (S len) -> exists q u v, pt = q ++ [u; v] /\ length q = len).
  { intros pt Hl. destruct (exists_last (l := pt)) as (q & v & ->); [intros ->; discriminate|].
    rewrite app_length in Hl. cbn in Hl. destruct (exists_last (l := q)) as (r & u & ->); [intros ->; cbn in Hl; lia|].
    rewrite app_length in Hl. cbn in Hl. exists r, u, v. rewrite <- app_assoc. split; [reflexivity|lia]. }
  assert (Hn : forall (q : list R) u v z, length q = len ->
     nth len (q ++ u :: v :: z) 0 = u /\ nth (S len) (q ++ u :: v :: z) 0 = v).
  { intros q u v z Hq. rewrite !app_nth2 by lia. rewrite <- Hq, Nat.sub_diag.
    replace (S (length q) - length q)%nat with 1%nat by lia. auto. }
  split; [lia|]. split.
  - intros pt z Hl. destruct (Hsplit pt Hl) as (q & u & v & -> & Hq).
    destruct (H2 q ([u; v] ++ z) Hq) as [A B]. destruct (H2 q [u; v] Hq) as [A' B'].
    rewrite <- app_assoc. rewrite A, A', B, B'.
    rewrite !(aff_value_app a q) by (eapply Forall_lt_le; [|exact Ha]; lia).
    destruct (Hn q u v z Hq) as [N1 N2]. destruct (Hn q u v [] Hq) as [N3 N4]. cbn [app] in *.
    rewrite N1, N2, N3, N4. tauto.
  - intros x Hx. destruct (H3 x Hx) as [A (z & B & C & D)]. split.
    + intros z' Hz' (HP & Hu & Hv & He).
      assert (Hz2 : exists z0 u v, z' = z0 ++ [u; v]).
      { destruct (exists_last (l := z')) as (q & v & ->); [intros ->; cbn in Hz'; lia|].
        rewrite app_length in Hz'. cbn in Hz'. destruct (exists_last (l := q)) as (r & u & ->); [intros ->; cbn in Hz'; lia|].
        exists r, u, v. rewrite <- app_assoc. reflexivity. }
      destruct Hz2 as (z0 & u & v & ->). rewrite app_length in Hz'. cbn in Hz'. rewrite app_assoc in *.
      assert (Hl : length (x ++ z0) = len) by (rewrite app_length; lia).
      destruct (H2 (x ++ z0) [u; v] Hl) as [P1 G1]. rewrite G1. apply P1 in HP.
      destruct (Hn (x ++ z0) u v [] Hl) as [N1 N2]. rewrite N1, N2 in *.
      rewrite <- app_assoc, aff_value_app in He by (rewrite Hx; exact Ha).
      specialize (A z0 ltac:(lia) HP).
      assert (Hab : Rabs (aff_value a x) <= u + v) by (apply Rabs_le; lra).
      pose proof (Rmult_le_compat_l c _ _ Hc Hab). lra.
    + set (y := aff_value a x).
      exists (z ++ [Rmax (- y) 0; Rmax y 0]). split; [rewrite app_length; cbn; lia|].
      rewrite app_assoc. assert (Hl : length (x ++ z) = len) by (rewrite app_length; lia).
      destruct (H2 (x ++ z) [Rmax (- y) 0; Rmax y 0] Hl) as [P1 G1]. rewrite G1.
      destruct (Hn (x ++ z) (Rmax (- y) 0) (Rmax y 0) [] Hl) as [N1 N2]. rewrite N1, N2, D.
      rewrite <- app_assoc, aff_value_app by (rewrite Hx; exact Ha). fold y.
      pose proof (Rmax_r (- y) 0). pose proof (Rmax_r y 0).
      assert (Hd : y + Rmax (- y) 0 - Rmax y 0 = 0 /\ Rmax (- y) 0 + Rmax y 0 = Rabs y).
      { unfold Rabs. destruct (Rcase_abs y).
        - rewrite (Rmax_left (- y) 0), (Rmax_right y 0) by lra. lra.
        - rewrite (Rmax_right (- y) 0), (Rmax_left y 0) by lra. lra. }
      destruct Hd as [Hd1 Hd2]. split.
      * split; [rewrite app_assoc; apply P1; exact C|]. auto.
      * rewrite <- Hd2. ring.
Qed.

(** ** the operations *)
(** everything in the objective is over variables of the model *)
Definition cin (s : cstate R) : Prop :=
  quad_in (length (fst s)) (co_quad (snd s)) /\
  Forall (aff_in (length (fst s))) (co_eqs (snd s)) /\ Forall (aff_in (length (fst s))) (co_ineqs (snd s)).

Lemma aff_in_inc n a b : aff_in n a -> aff_in n b -> aff_in n (aff_inc a b).
Proof. intros [H1 H2] [H3 H4]. split; [apply aff_inc_wf; assumption|]. cbn. apply Forall_app. auto. Qed.
Lemma aff_in_scale n a k : aff_in n a -> aff_in n (aff_scale a k).
Proof. intros [H1 H2]. split; [apply aff_scale_wf; exact H1|exact H2]. Qed.
Lemma aff_in_var n v : (v < n)%nat -> aff_in n (aff_var v).
Proof. intros H. split; [reflexivity|]. constructor; auto. Qed.
Lemma quad_in_inc_aff n q a : quad_in n q -> aff_in n a -> quad_in n (quad_inc_aff q a).
Proof.
  intros (H1 & H2 & H3 & H4) Ha. unfold quad_inc_aff. split.
  - destruct H1 as (A & B & C). destruct Ha as [D _]. split; [apply aff_inc_wf; assumption|]. auto.
  - cbn. split; [apply aff_in_inc; assumption|]. auto.
Qed.
Lemma quad_in_inc n q p : quad_in n q -> quad_in n p -> quad_in n (quad_inc q p).
Proof.
  intros (H1 & H2 & H3 & H4) (H5 & H6 & H7 & H8). split; [apply quad_inc_wf; assumption|].
  cbn. split; [apply aff_in_inc; assumption|]. split; apply Forall_app; auto.
Qed.
Lemma quad_inc_aff_value (q : quad R) a x : wf_quad q -> quad_value (quad_inc_aff q a) x = quad_value q x + aff_value a x.
Proof.
  intros (H & _). unfold quad_inc_aff. rewrite quad_aff_value, aff_inc_value by exact H. ring.
Qed.

Lemma square_vars_in n vs : Forall (fun v => (v < n)%nat) vs ->
  Forall (fun v => (v < n)%nat) (square_vars1 vs) /\ Forall (fun v => (v < n)%nat) (square_vars2 vs).
Proof.
  induction vs as [|v vs IH]; intros H; cbn; [auto|]. inversion H; subst. destruct IH as [A B]; [assumption|].
  split; constructor; auto; apply Forall_app; split; auto.
  rewrite Forall_map. apply Forall_forall. auto.
Qed.
Lemma quad_in_square n a : aff_in n a -> quad_in n (aff_square a).
Proof.
  intros [H1 H2]. destruct (square_vars_in n _ H2) as [A B].
  split; [apply aff_square_wf; exact H1|]. split; [|cbn; auto].
  split; [unfold wf_aff; cbn; rewrite map_length; exact H1|exact H2].
Qed.
Lemma quad_in_scale n q k : quad_in n q -> quad_in n (quad_scale q k).
Proof.
  intros (H1 & H2 & H3 & H4). split; [apply quad_scale_wf; exact H1|]. split; [apply aff_in_scale; exact H2|]. auto.
Qed.

Lemma obj_feasible_bounds_snoc n1 (m : list (option R * option R)) b pt :
  (n1 <= length m)%nat ->
  ((forall i b', (n1 <= i)%nat -> nth_error (m ++ [b]) i = Some b' -> in_bnd b' (nth i pt 0)) <->
   (forall i b', (n1 <= i)%nat -> nth_error m i = Some b' -> in_bnd b' (nth i pt 0)) /\ in_bnd b (nth (length m) pt 0)).
Proof.
  intros Hl. split.
  - intros H. split.
    + intros i b' Hi E. apply H; [exact Hi|]. rewrite nth_error_app1; [exact E|]. apply nth_error_Some. congruence.
    + apply H; [exact Hl|]. rewrite nth_error_app2, Nat.sub_diag by lia. reflexivity.
  - intros [H1 H2] i b' Hi E. destruct (Nat.lt_ge_cases i (length m)).
    + rewrite nth_error_app1 in E by assumption. auto.
    + rewrite nth_error_app2 in E by assumption. destruct (i - length m)%nat as [|k] eqn:Ek.
      * cbn in E. injection E as <-. replace i with (length m) by lia. exact H2.
      * cbn in E. destruct k; discriminate.
Qed.

Lemma in_bnd_nonneg v : in_bnd (Some 0, None) v <-> 0 <= v.
Proof. unfold in_bnd. cbn. tauto. Qed.

Lemma Forall_snoc {A} (P : A -> Prop) l a : Forall P (l ++ [a]) <-> Forall P l /\ P a.
Proof. rewrite Forall_app. split; intros [H1 H2]; split; auto. inversion H2; auto. Qed.

Lemma abs_eq_value (a : aff R) u v pt : wf_aff a ->
  aff_value {| a_const := a_const a; a_coeffs := a_coeffs a ++ [none_; nopp none_]; a_vars := a_vars a ++ [u; v] |} pt =
  aff_value a pt + nth u pt 0 - nth v pt 0.
Proof.
  intros H. rewrite !aff_value_sum. cbn [a_const a_coeffs a_vars].
  rewrite combine_app, rsum_app by exact H. cbn [combine]. rewrite !rsum_cons, rsum_nil. cbn. rnum. ring.
Qed.
Lemma abs_cost_value u v (c : R) pt :
  aff_value {| a_const := nzero; a_coeffs := [c; c]; a_vars := [u; v] |} pt = c * nth u pt 0 + c * nth v pt 0.
Proof. rewrite aff_value_sum. cbn [a_const a_coeffs a_vars combine]. rewrite !rsum_cons, rsum_nil. cbn. rnum. ring. Qed.

Section Build.
  Variables (n n1 : nat) (P0 : list R -> Prop) (g0 : list R -> R).
  Hypothesis Hn1 : (n <= n1)%nat.

  (** [s] represents [F] on top of [P0]/[g0] *)
  Definition Inv (s : cstate R) (F : list R -> R) : Prop :=
    (n1 <= length (fst s))%nat /\ cin s /\
    Rep n (length (fst s)) (fun pt => P0 pt /\ obj_feasible n1 s pt) (fun pt => g0 pt + quad_value (co_quad (snd s)) pt) F.

  Lemma Inv_hinge s F a c : Inv s F -> aff_in n a -> 0 <= c ->
    Inv (add_hinge s a c) (fun x => F x + c * Rmax (aff_value a x) 0).
  Proof.
    intros (Hl & (C1 & C2 & C3) & Hr) Ha Hc. destruct s as [m o]. cbn [fst snd] in *.
    unfold add_hinge. cbn [add_var fst snd]. split; [cbn; rewrite app_length; cbn; lia|].
    assert (Ha' : aff_in (S (length m)) a) by (eapply aff_in_le; [|exact Ha]; lia).
    split; [split; [|split]|].
    - cbn [fst snd co_quad]. rewrite app_length. cbn [length]. apply quad_in_inc_aff.
      + eapply quad_in_le; [|exact C1]; lia.
      + apply aff_in_scale, aff_in_var. lia.
    - cbn [fst snd co_eqs]. rewrite app_length. cbn [length]. eapply Forall_impl; [|exact C2]. intros; eapply aff_in_le; [|eassumption]; lia.
    - cbn [fst snd co_ineqs]. rewrite app_length. cbn [length]. apply Forall_snoc. split.
      + eapply Forall_impl; [|exact C3]. intros; eapply aff_in_le; [|eassumption]; lia.
      + unfold aff_dec_var, aff_dec. apply aff_in_inc; [rewrite Nat.add_1_r; exact Ha'|]. apply aff_in_scale, aff_in_var. lia.
    - cbn [fst snd]. rewrite app_length. cbn [length]. rewrite Nat.add_1_r.
      eapply Rep_ext; [apply (Rep_hinge _ _ _ _ _ a c Hr Ha Hc)|..].
      + intros pt Hpt. unfold obj_feasible. cbn [fst snd co_eqs co_ineqs].
        rewrite obj_feasible_bounds_snoc by exact Hl. rewrite in_bnd_nonneg, Forall_snoc.
        unfold aff_dec_var. rewrite aff_dec_value, aff_var_value by apply Ha. tauto.
      + intros pt Hpt. cbn beta. cbn [co_quad]. rewrite quad_inc_aff_value by apply C1.
        rewrite aff_scale_value, aff_var_value. ring.
      + intros; reflexivity.
  Qed.

  Lemma Inv_abs s F a c : Inv s F -> aff_in n a -> 0 <= c ->
    Inv (add_abs s a c) (fun x => F x + c * Rabs (aff_value a x)).
  Proof.
    intros (Hl & (C1 & C2 & C3) & Hr) Ha Hc. destruct s as [m o]. cbn [fst snd] in *.
    unfold add_abs. cbn [add_var fst snd].
    assert (Hlen : length ((m ++ [(Some nzero, None)]) ++ [(Some (@nzero R _), @None R)]) = S (S (length m)))
      by (rewrite !app_length; cbn; lia).
    assert (Hlen1 : length (m ++ [(Some (@nzero R _), @None R)]) = S (length m)) by (rewrite app_length; cbn; lia).
    split; [cbn [fst]; rewrite Hlen; lia|].
    assert (Ha' : aff_in (S (S (length m))) a) by (eapply aff_in_le; [|exact Ha]; lia).
    assert (Hnp : Forall (fun v => (v < S (S (length m)))%nat) [length m; length (m ++ [(Some (@nzero R _), @None R)])])
      by (rewrite Hlen1; repeat constructor; lia).
    split; [split; [|split]|]; cbn [fst snd co_quad co_eqs co_ineqs]; rewrite Hlen.
    - apply quad_in_inc_aff; [eapply quad_in_le; [|exact C1]; lia|]. split; [reflexivity|exact Hnp].
    - apply Forall_snoc. split; [eapply Forall_impl; [|exact C2]; intros; eapply aff_in_le; [|eassumption]; lia|].
      destruct Ha' as [A B]. split; [unfold wf_aff in *; cbn [a_coeffs a_vars]; rewrite !app_length, A; reflexivity|].
      cbn [a_vars]. apply Forall_app. auto.
    - eapply Forall_impl; [|exact C3]. intros; eapply aff_in_le; [|eassumption]; lia.
    - eapply Rep_ext; [apply (Rep_abs _ _ _ _ _ a c Hr Ha Hc)|..].
      + intros pt Hpt. unfold obj_feasible. cbn [fst snd co_eqs co_ineqs].
        rewrite obj_feasible_bounds_snoc by (rewrite Hlen1; lia). rewrite obj_feasible_bounds_snoc by exact Hl.
        rewrite !in_bnd_nonneg, Forall_snoc, abs_eq_value by apply Ha. rewrite Hlen1. tauto.
      + intros pt Hpt. cbn beta. rewrite quad_inc_aff_value by apply C1. rewrite abs_cost_value, Hlen1. ring.
      + intros; reflexivity.
  Qed.

  Lemma Inv_quad s F q : Inv s F -> quad_in n q -> Inv (add_quad s q) (fun x => F x + quad_value q x).
  Proof.
    intros (Hl & (C1 & C2 & C3) & Hr) Hq. destruct s as [m o]. cbn [fst snd] in *.
    split; [exact Hl|]. split; [split; [|split]; cbn [fst snd co_quad co_eqs co_ineqs add_quad]; auto|].
    - apply quad_in_inc; [exact C1|]. eapply quad_in_le; [|exact Hq]; lia.
    - cbn [add_quad fst snd]. eapply Rep_ext; [apply (Rep_add _ _ _ _ _ (quad_value q) Hr)|..].
      + intros x z Hx. apply quad_value_app. rewrite Hx. exact Hq.
      + intros pt Hpt. unfold obj_feasible. cbn. tauto.
      + intros pt Hpt. cbn [co_quad]. rewrite quad_inc_value by apply C1. ring.
      + intros; reflexivity.
  Qed.
  Lemma Inv_aff s F a : Inv s F -> aff_in n a -> Inv (add_aff s a) (fun x => F x + aff_value a x).
  Proof.
    intros (Hl & (C1 & C2 & C3) & Hr) Ha. destruct s as [m o]. cbn [fst snd] in *.
    split; [exact Hl|]. split; [split; [|split]; cbn [fst snd co_quad co_eqs co_ineqs add_aff]; auto|].
    - apply quad_in_inc_aff; [exact C1|]. eapply aff_in_le; [|exact Ha]; lia.
    - cbn [add_aff fst snd]. eapply Rep_ext; [apply (Rep_add _ _ _ _ _ (aff_value a) Hr)|..].
      + intros x z Hx. apply aff_value_app. rewrite Hx. apply Ha.
      + intros pt Hpt. unfold obj_feasible. cbn. tauto.
      + intros pt Hpt. cbn [co_quad]. rewrite quad_inc_aff_value by apply C1. ring.
      + intros; reflexivity.
  Qed.

  Lemma Inv_F s F F' : Inv s F -> (forall x, F x = F' x) -> Inv s F'.
  Proof.
    intros (H1 & H2 & H3) H. split; [exact H1|]. split; [exact H2|].
    eapply Rep_ext; [exact H3|..]; intros; auto; tauto.
  Qed.

  Lemma Inv_fold (f : cstate R -> aff R -> cstate R) (v : aff R -> list R -> R) :
    (forall s F a, Inv s F -> aff_in n a -> Inv (f s a) (fun x => F x + v a x)) ->
    forall es s F, Inv s F -> Forall (aff_in n) es -> Inv (fold_left f es s) (fun x => F x + rsum (fun a => v a x) es).
  Proof.
    intros Hf es. induction es as [|a es IH]; intros s F Hs He; cbn [fold_left].
    - eapply Inv_F; [exact Hs|]. intros x. rewrite rsum_nil. ring.
    - inversion He; subst. eapply Inv_F; [apply IH; [apply Hf; [exact Hs|assumption]|assumption]|].
      intros x. cbn beta. rewrite rsum_cons. ring.
  Qed.

  Lemma Inv_op s F o : Inv s F -> op_ok n o -> Inv (apply_op s o) (fun x => F x + op_exact x o).
  Proof.
    intros Hs Ho. destruct o; cbn [apply_op op_exact op_ok] in *.
    - apply Inv_aff; assumption.
    - apply Inv_quad; assumption.
    - apply Inv_hinge; tauto.
    - apply Inv_abs; tauto.
    - apply (Inv_fold (fun s a => add_hinge s a none_) (fun a x => Rmax (aff_value a x) 0)); auto.
      intros s' F' a Hs' Ha. eapply Inv_F; [apply Inv_hinge; [exact Hs'|exact Ha|rnum; lra]|]. intros x. cbn. rnum. ring.
    - apply (Inv_fold (fun s a => add_abs s a none_) (fun a x => Rabs (aff_value a x))); auto.
      intros s' F' a Hs' Ha. eapply Inv_F; [apply Inv_abs; [exact Hs'|exact Ha|rnum; lra]|]. intros x. cbn. rnum. ring.
    - apply (Inv_fold (fun s a => add_quad s (aff_square a)) (fun a x => aff_value a x * aff_value a x)); auto.
      intros s' F' a Hs' Ha. eapply Inv_F; [apply Inv_quad; [exact Hs'|apply quad_in_square; exact Ha]|].
      intros x. cbn beta. rewrite aff_square_value by apply Ha. reflexivity.
    - contradiction.
  Qed.

  Lemma Inv_ops ops s F : Inv s F -> Forall (op_ok n) ops ->
    Inv (fold_left apply_op ops s) (fun x => F x + rsum (op_exact x) ops).
  Proof.
    revert s F; induction ops as [|o ops IH]; intros s F Hs Ho; cbn [fold_left].
    - eapply Inv_F; [exact Hs|]. intros x. rewrite rsum_nil. ring.
    - inversion Ho; subst. eapply Inv_F; [apply IH; [apply Inv_op; [exact Hs|assumption]|assumption]|].
      intros x. cbn beta. rewrite rsum_cons. ring.
  Qed.
End Build.

Lemma cobj_empty_cin (m : list (option R * option R)) : cin (m, cobj_empty).
Proof.
  split; [|split; constructor]. split; [split; [reflexivity|split; reflexivity]|]. split; [split; [reflexivity|constructor]|].
  split; constructor.
Qed.
Lemma empty_feasible (m : list (option R * option R)) pt : obj_feasible (length m) (m, cobj_empty) pt.
Proof.
  split; [|split; constructor]. intros i b Hi E. exfalso. cbn [fst] in E.
  assert (nth_error m i <> None) by congruence. apply nth_error_Some in H. lia.
Qed.
Lemma quad_const_value (k : R) x : quad_value (quad_const k) x = k.
Proof. unfold quad_const. rewrite quad_of_aff_value, aff_const_value. reflexivity. Qed.

Lemma Inv_empty n (m : list (option R * option R)) P0 g0 F0 : Rep n (length m) P0 g0 F0 ->
  Inv n (length m) P0 g0 (m, cobj_empty) F0.
Proof.
  intros H. split; [apply Nat.le_refl|]. split; [apply cobj_empty_cin|]. cbn [fst snd co_quad cobj_empty].
  eapply Rep_ext; [exact H|..].
  - intros pt _. split; [|tauto]. intros Hp. split; [exact Hp|]. apply empty_feasible.
  - intros pt _. rewrite quad_const_value. rnum. ring.
  - reflexivity.
Qed.

Lemma Rep_trivial n : Rep n n (fun _ => True) (fun _ => 0) (fun _ => 0).
Proof.
  split; [apply Nat.le_refl|]. split; [intros; tauto|]. intros x Hx. split.
  - intros; lra.
  - exists []. split; [cbn; lia|]. auto.
Qed.

(** The main statement for one objective. *)
Lemma build_min (m : list (option R * option R)) ops x : length x = length m -> Forall (op_ok (length m)) ops ->
  let s := build m ops in
  min_over_aux (length (fst s)) (obj_feasible (length m) s) (quad_value (co_quad (snd s))) x (rsum (op_exact x) ops).
Proof.
  intros Hx Ho s.
  pose proof (Inv_ops (length m) (length m) (fun _ => True) (fun _ => 0) (Nat.le_refl _) ops (m, cobj_empty) (fun _ => 0)
     (Inv_empty _ _ _ _ _ (Rep_trivial _)) Ho) as (_ & _ & Hr).
  fold (build m ops) in Hr. fold s in Hr.
  eapply Rep_ext with (P' := obj_feasible (length m) s) (g' := quad_value (co_quad (snd s)))
     (F' := fun x => rsum (op_exact x) ops) in Hr; [|intros; tauto|intros; cbn; ring|intros; cbn; ring].
  apply Hr. exact Hx.
Qed.

(** ** merit objective: all constraints as penalties in one model *)
Definition cnts_ok (n : nat) (c : ccnts R) : Prop := Forall (aff_in n) (cc_eqs c) /\ Forall (aff_in n) (cc_ineqs c).

Lemma pospart_Rmax (v : R) : pospart v = Rmax v 0.
Proof. unfold pospart. rnum. rcase; [rewrite Rmax_left by lra|rewrite Rmax_right by lra]; reflexivity. Qed.

Lemma cnt_to_ops_exact c k x : rsum (op_exact x) (cnt_to_ops c k) = k * ccnts_violation c x.
Proof.
  unfold cnt_to_ops, ccnts_violation, ccnts_violations. rewrite rsum_app, !rsum_map. cbn [op_exact].
  rewrite vsum_R, Rsum_app. fold (rsum (fun a => nabs (aff_value a x)) (cc_eqs c)).
  fold (rsum (fun a => pospart (aff_value a x)) (cc_ineqs c)).
  rewrite Rmult_plus_distr_l, <- !rsum_scal. f_equal. apply rsum_ext. intros a _. rewrite pospart_Rmax. reflexivity.
Qed.
Lemma cnt_to_ops_ok n c k : cnts_ok n c -> 0 <= k -> Forall (op_ok n) (cnt_to_ops c k).
Proof.
  intros [H1 H2] Hk. apply Forall_app. split; rewrite Forall_map;
    (eapply Forall_impl; [|eassumption]); cbn; auto.
Qed.

(** feasibility with respect to all the objectives *)
Definition all_feasible (n : nat) (m : list (option R * option R)) (os : list (cobj R)) (pt : list R) : Prop :=
  (forall i b, (n <= i)%nat -> nth_error m i = Some b -> in_bnd b (nth i pt 0)) /\
  Forall (fun o => Forall (fun a => aff_value a pt = 0) (co_eqs o) /\ Forall (fun a => aff_value a pt <= 0) (co_ineqs o)) os.

Lemma fold_ops_prefix (ops : list (op R)) (m : list (option R * option R)) (o : cobj R) :
  exists t, fst (fold_left apply_op ops (m, o)) = m ++ t.
Proof.
  assert (H1 : forall (s : cstate R) a c, exists t, fst (add_hinge s a c) = fst s ++ t) by (intros; eexists; reflexivity).
  assert (H2 : forall (s : cstate R) a c, exists t, fst (add_abs s a c) = fst s ++ t).
  { intros. eexists. cbn [add_abs add_var fst]. rewrite <- app_assoc. reflexivity. }
  assert (H3 : forall (f : cstate R -> aff R -> cstate R), (forall s a, exists t, fst (f s a) = fst s ++ t) ->
    forall es s, exists t, fst (fold_left f es s) = fst s ++ t).
  { intros f Hf es. induction es as [|a es IH]; intros s; cbn [fold_left]; [exists []; rewrite app_nil_r; reflexivity|].
    destruct (IH (f s a)) as [t Ht]. destruct (Hf s a) as [t' Ht']. exists (t' ++ t). rewrite Ht, Ht', app_assoc. reflexivity. }
  assert (H4 : forall (s : cstate R) (o : op R), exists t, fst (apply_op s o) = fst s ++ t).
  { intros s o'. destruct o'; cbn [apply_op]; auto.
    - exists []. rewrite app_nil_r. reflexivity.
    - exists []. rewrite app_nil_r. reflexivity.
    - apply H3. auto.
    - apply H3. auto.
    - apply H3. intros; exists []; rewrite app_nil_r; reflexivity.
    - eexists. reflexivity. }
  enough (Hg : forall s : cstate R, exists t, fst (fold_left apply_op ops s) = fst s ++ t) by apply (Hg (m, o)).
  induction ops as [|p ops IH]; intros s; cbn [fold_left].
  - exists []. rewrite app_nil_r. reflexivity.
  - destruct (IH (apply_op s p)) as [t Ht]. destruct (H4 s p) as [t' Ht']. exists (t' ++ t).
    rewrite Ht, Ht', app_assoc. reflexivity.
Qed.

Lemma bounds_split n (m t : list (option R * option R)) pt : (n <= length m)%nat ->
  ((forall i b, (n <= i)%nat -> nth_error (m ++ t) i = Some b -> in_bnd b (nth i pt 0)) <->
   (forall i b, (n <= i)%nat -> nth_error m i = Some b -> in_bnd b (nth i pt 0)) /\
   (forall i b, (length m <= i)%nat -> nth_error (m ++ t) i = Some b -> in_bnd b (nth i pt 0))).
Proof.
  intros Hn. split.
  - intros H. split.
    + intros i b Hi E. apply H; [exact Hi|]. rewrite nth_error_app1; [exact E|]. apply nth_error_Some. congruence.
    + intros i b Hi E. apply H; [lia|exact E].
  - intros [H1 H2] i b Hi E. destruct (Nat.lt_ge_cases i (length m)); [|auto].
    apply H1; [exact Hi|]. rewrite nth_error_app1 in E by assumption. exact E.
Qed.

Lemma cnts_to_costs_rep n : forall cs ks (m : list (option R * option R)) done F,
  length cs = length ks -> Forall (cnts_ok n) cs -> Forall (fun k => 0 <= k) ks -> (n <= length m)%nat ->
  Rep n (length m) (all_feasible n m done) (fun pt => rsum (fun o => quad_value (co_quad o) pt) done) F ->
  let (m', os) := cnts_to_costs m cs ks in
  Rep n (length m') (all_feasible n m' (done ++ os)) (fun pt => rsum (fun o => quad_value (co_quad o) pt) (done ++ os))
    (fun x => F x + rsum (fun ck => snd ck * ccnts_violation (fst ck) x) (combine cs ks)).
Proof.
  intros cs. induction cs as [|c cs IH]; intros [|k ks] m done F Hlen Hc Hk Hn Hr; try discriminate; cbn [cnts_to_costs].
  - rewrite app_nil_r. eapply Rep_ext; [exact Hr|..]; intros; try tauto. cbn. rewrite rsum_nil. ring.
  - inversion Hc; subst. inversion Hk; subst. injection Hlen as Hlen.
    destruct (build m (cnt_to_ops c k)) as [m1 o1] eqn:Eb.
    pose proof (Inv_ops n (length m) _ _ Hn (cnt_to_ops c k) (m, cobj_empty) _
       (Inv_empty _ _ _ _ _ Hr) (cnt_to_ops_ok n c k H1 H3)) as (Hl1 & _ & Hr1).
    fold (build m (cnt_to_ops c k)) in Hl1, Hr1. rewrite Eb in Hl1, Hr1. cbn [fst snd] in *.
    destruct (fold_ops_prefix (cnt_to_ops c k) m cobj_empty) as [t Ht].
    fold (build m (cnt_to_ops c k)) in Ht. rewrite Eb in Ht. cbn [fst] in Ht.
    specialize (IH ks m1 (done ++ [o1]) (fun x => F x + k * ccnts_violation c x) Hlen H2 H4 ltac:(lia)).
    destruct (cnts_to_costs m1 cs ks) as [m' os].
    replace (done ++ o1 :: os) with ((done ++ [o1]) ++ os) by (rewrite <- app_assoc; reflexivity).
    eapply Rep_ext; [apply IH|..].
    + eapply Rep_ext; [exact Hr1|..].
      * intros pt Hpt. unfold all_feasible, obj_feasible. cbn [fst snd]. rewrite Forall_snoc. rewrite Ht.
        rewrite (bounds_split n m t pt Hn). tauto.
      * intros pt Hpt. rewrite rsum_app, rsum_cons, rsum_nil. ring.
      * intros x Hx. cbn beta. rewrite cnt_to_ops_exact. reflexivity.
    + intros; tauto.
    + intros; reflexivity.
    + intros x Hx. cbn [combine]. rewrite rsum_cons. cbn [fst snd]. ring.
Qed.

(** ** removal *)
Lemma remove_tail (m t : list (option R * option R)) vs : vs = seq (length m) (length t) -> remove_vars (m ++ t) vs = m.
Proof.
  intros ->. unfold remove_vars. rewrite app_length, seq_app, combine_app by apply seq_length.
  rewrite filter_app, map_app. rewrite Nat.add_0_l.
  assert (H1 : forall k d (l : list (option R * option R)), (k + length l <= d)%nat ->
    filter (fun ib => negb (existsb (Nat.eqb (fst ib)) (seq d (length t)))) (combine (seq k (length l)) l) = combine (seq k (length l)) l).
  { intros k d l; revert k; induction l as [|b l IH]; intros k Hk; [reflexivity|]. cbn [length seq combine filter fst] in *.
    rewrite IH by lia. destruct (existsb (Nat.eqb k) (seq d (length t))) eqn:E; [|reflexivity].
    apply existsb_exists in E as (y & Hy & Ey). apply in_seq in Hy. apply Nat.eqb_eq in Ey. lia. }
  rewrite H1 by lia.
  assert (H2 : filter (fun ib => negb (existsb (Nat.eqb (fst ib)) (seq (length m) (length t)))) (combine (seq (length m) (length t)) t) = []).
  { assert (Hg : forall k (l : list (option R * option R)), (length m <= k)%nat -> (k + length l <= length m + length t)%nat ->
       filter (fun ib => negb (existsb (Nat.eqb (fst ib)) (seq (length m) (length t)))) (combine (seq k (length l)) l) = []).
    { intros k l; revert k; induction l as [|b l IH]; intros k H3 H4; [reflexivity|]. cbn [length seq combine filter fst] in *.
      rewrite IH by lia. destruct (existsb (Nat.eqb k) (seq (length m) (length t))) eqn:E; [reflexivity|].
      exfalso. assert (existsb (Nat.eqb k) (seq (length m) (length t)) = true); [|congruence].
      apply existsb_exists. exists k. split; [apply in_seq; lia|apply Nat.eqb_refl]. }
    apply Hg; lia. }
  rewrite H2. cbn [map]. rewrite app_nil_r. destruct (combine_split_eq (seq 0 (length m)) m) as [_ ->]; [apply seq_length|reflexivity].
Qed.

(** all operations except addMax record every variable they create *)
Definition not_max (o : op R) : Prop := match o with OpMax _ => False | _ => True end.
Definition rec_vars (m0 : list (option R * option R)) (s : cstate R) : Prop :=
  exists t, fst s = m0 ++ t /\ co_vars (snd s) = seq (length m0) (length t).

Lemma rec_hinge m0 s a c : rec_vars m0 s -> rec_vars m0 (add_hinge s a c).
Proof.
  intros (t & H1 & H2). exists (t ++ [(Some nzero, None)]). cbn [add_hinge add_var fst snd co_vars].
  rewrite H1, H2, !app_length, app_assoc. split; [reflexivity|]. cbn [length]. rewrite Nat.add_1_r, seq_S. reflexivity.
Qed.
Lemma rec_abs m0 s a c : rec_vars m0 s -> rec_vars m0 (add_abs s a c).
Proof.
  intros (t & H1 & H2). exists (t ++ [(Some nzero, None); (Some nzero, None)]). cbn [add_abs add_var fst snd co_vars].
  rewrite H1, H2, !app_length. split; [rewrite <- !app_assoc; reflexivity|]. cbn [length].
  rewrite seq_app. f_equal. cbn [seq]. f_equal. f_equal. lia.
Qed.
Lemma rec_fold m0 (f : cstate R -> aff R -> cstate R) : (forall s a, rec_vars m0 s -> rec_vars m0 (f s a)) ->
  forall es s, rec_vars m0 s -> rec_vars m0 (fold_left f es s).
Proof. intros Hf es. induction es as [|a es IH]; intros s H; cbn; auto. Qed.
Lemma rec_op m0 s o : not_max o -> rec_vars m0 s -> rec_vars m0 (apply_op s o).
Proof.
  intros Hn H. destruct o; cbn [apply_op not_max] in *; try contradiction; auto using rec_hinge, rec_abs.
  - apply rec_fold; auto using rec_hinge.
  - apply rec_fold; auto using rec_abs.
  - apply rec_fold; auto.
Qed.
Lemma remove_build (m : list (option R * option R)) ops : Forall not_max ops -> remove_from_model (build m ops) = m.
Proof.
  intros H. assert (Hr : rec_vars m (build m ops)).
  { unfold build. assert (H0 : rec_vars m (m, @cobj_empty R _)) by (exists []; rewrite app_nil_r; split; reflexivity).
    revert H0. generalize (m, @cobj_empty R _). induction H as [|o ops Ho Hops IH]; intros s Hs; cbn [fold_left]; [exact Hs|].
    apply IH. apply rec_op; assumption. }
  destruct Hr as (t & H1 & H2). unfold remove_from_model. rewrite H1. apply remove_tail. exact H2.
Qed.

(** ** violations *)
Lemma violations_spec ty (vals : list R) :
  Forall (fun v => 0 <= v) (cnt_violations ty vals) /\ length (cnt_violations ty vals) = length vals /\
  (Forall (fun v => v = 0) (cnt_violations ty vals) <->
   Forall (fun v => match ty with EQ => v = 0 | INEQ => v <= 0 end) vals) /\
  cnt_violation ty vals = Rsum (cnt_violations ty vals) /\
  (cnt_violation ty vals = 0 <-> Forall (fun v => match ty with EQ => v = 0 | INEQ => v <= 0 end) vals).
Proof.
  assert (Hp : forall v : R, 0 <= pospart v /\ (pospart v = 0 <-> v <= 0)).
  { intros v. unfold pospart. rnum. rcase; lra. }
  assert (Ha : forall v : R, 0 <= Rabs v /\ (Rabs v = 0 <-> v = 0)).
  { intros v. split; [apply Rabs_pos|]. split; [|intros ->; apply Rabs_R0]. intros H.
    destruct (Req_dec v 0); [assumption|]. apply Rabs_no_R0 in H0. contradiction. }
  assert (H1 : Forall (fun v => 0 <= v) (cnt_violations ty vals)).
  { destruct ty; cbn; rewrite Forall_map; apply Forall_forall; intros v _; [apply Ha|apply Hp]. }
  assert (H3 : Forall (fun v => v = 0) (cnt_violations ty vals) <->
    Forall (fun v => match ty with EQ => v = 0 | INEQ => v <= 0 end) vals).
  { destruct ty; cbn; rewrite Forall_map; rewrite !Forall_forall; (split; intros H v Hv; specialize (H v Hv)); rnum;
      [apply Ha|apply Ha|apply Hp|apply Hp]; exact H. }
  split; [exact H1|]. split; [destruct ty; apply map_length|]. split; [exact H3|].
  assert (H4 : cnt_violation ty vals = Rsum (cnt_violations ty vals)) by (unfold cnt_violation; apply vsum_R).
  split; [exact H4|]. rewrite H4, <- H3. generalize (cnt_violations ty vals), H1. clear. intros l.
  induction l as [|a l IH]; intros H; cbn; [split; constructor|]. inversion H; subst.
  pose proof (Rsum_nonneg l H3). split.
  - intros E. constructor; [lra|]. apply IH; [assumption|lra].
  - intros E. inversion E; subst. rewrite (proj2 (IH H3)) by assumption. ring.
Qed.

Lemma ccnts_violations_spec (c : ccnts R) x :
  Forall (fun v => 0 <= v) (ccnts_violations c x) /\
  (ccnts_violation c x = 0 <->
   Forall (fun a => aff_value a x = 0) (cc_eqs c) /\ Forall (fun a => aff_value a x <= 0) (cc_ineqs c)) /\
  (Forall (fun v => v = 0) (ccnts_violations c x) <->
   Forall (fun a => aff_value a x = 0) (cc_eqs c) /\ Forall (fun a => aff_value a x <= 0) (cc_ineqs c)).
Proof.
  pose proof (violations_spec EQ (map (fun a => aff_value a x) (cc_eqs c))) as (A1 & _ & A2 & A3 & A4).
  pose proof (violations_spec INEQ (map (fun a => aff_value a x) (cc_ineqs c))) as (B1 & _ & B2 & B3 & B4).
  assert (E : ccnts_violations c x = cnt_violations EQ (map (fun a => aff_value a x) (cc_eqs c)) ++
              cnt_violations INEQ (map (fun a => aff_value a x) (cc_ineqs c))).
  { unfold ccnts_violations. cbn [cnt_violations]. rewrite !map_map. reflexivity. }
  unfold ccnts_violation. rewrite E, vsum_R, Rsum_app, !Forall_app, A2, B2. rewrite !Forall_map in *.
  split; [auto|]. split; [|tauto].
  rewrite <- A3, <- B3.
  assert (0 <= cnt_violation EQ (map (fun a => aff_value a x) (cc_eqs c))) by (rewrite A3; apply Rsum_nonneg; exact A1).
  assert (0 <= cnt_violation INEQ (map (fun a => aff_value a x) (cc_ineqs c))) by (rewrite B3; apply Rsum_nonneg; exact B1).
  rewrite <- A4, <- B4. lra.
Qed.

(** ** linearisation of an error function *)
Definition lin_term (x pt : list R) (gv : R * nat) : R := fst gv * (nth (snd gv) pt 0 - nth (snd gv) x 0).

Lemma vdot_get_vec (g : list R) x vs : vdot g (get_vec x vs) = rsum (tm x) (combine g vs).
Proof.
  unfold vdot, get_vec. rewrite vsum_R, combine_map_r, map_map. unfold rsum. f_equal. 
Qed.

Definition small_terms (g : list R) (vs : list nat) : list (R * nat) :=
  filter (fun cv => negb (keep_term cv)) (combine g vs).

Lemma val_grad_value y x (g : list R) vs pt :
  aff_value (aff_from_val_grad y (get_vec x vs) g vs) pt =
  y + rsum (lin_term x pt) (combine g vs) - rsum (tm pt) (small_terms g vs).
Proof.
  unfold aff_from_val_grad. rewrite cleanup_value, aff_value_sum. cbn [a_const a_coeffs a_vars]. unfold dropped, small_terms.
  cbn [a_coeffs a_vars]. rewrite vdot_get_vec. rnum.
  assert (H : rsum (lin_term x pt) (combine g vs) = rsum (tm pt) (combine g vs) - rsum (tm x) (combine g vs)).
  { unfold Rminus. rewrite <- (Rmult_1_l (rsum (tm x) _)), Ropp_mult_distr_l, <- rsum_scal, <- rsum_plus.
    apply rsum_ext. intros [c v] _. unfold lin_term. cbn. ring. }
  rewrite H. ring.
Qed.
Lemma small_terms_bound (g : list R) vs pt :
  Rabs (rsum (tm pt) (small_terms g vs)) <= 1 / 10 ^ 7 * rsum (fun v => Rabs (nth v pt 0)) vs.
Proof.
  revert vs; induction g as [|c g IH]; intros [|v vs]; unfold small_terms; cbn [combine filter].
  - rewrite !rsum_nil, Rabs_R0. lra.
  - rewrite rsum_nil, Rabs_R0. apply Rmult_le_pos; [lra|]. apply rsum_nonneg. intros; apply Rabs_pos.
  - rewrite !rsum_nil, Rabs_R0. lra.
  - specialize (IH vs). fold (small_terms g vs). rewrite rsum_cons. pose proof (Rabs_pos (nth v pt 0)).
    destruct (negb (keep_term (c, v))) eqn:E.
    + rewrite rsum_cons. eapply Rle_trans; [apply Rabs_triang|].
      assert (Hc : Rabs c <= 1 / 10 ^ 7).
      { unfold keep_term in E. cbn [fst] in E. rnum. apply negb_true_iff in E. rcmp. rewrite Rdec_m7 in E. exact E. }
      cbn [fst snd]. rewrite Rabs_mult. 
      pose proof (Rmult_le_compat_r _ _ _ H Hc). lra.
    + assert (0 <= 1 / 10 ^ 7 * Rabs (nth v pt 0)) by (apply Rmult_le_pos; lra). lra.
Qed.
Lemma small_terms_zero (g : list R) vs pt : Forall (fun c => c = 0 \/ 1 / 10 ^ 7 < Rabs c) g ->
  rsum (tm pt) (small_terms g vs) = 0.
Proof.
  intros H. rewrite (rsum_ext _ (fun _ => 0)); [apply rsum_zero|]. intros [c v] Hin. cbn.
  unfold small_terms in Hin. apply filter_In in Hin as [Hin E]. apply in_combine_l in Hin.
  rewrite Forall_forall in H. destruct (H c Hin) as [->|Hb]; [ring|]. exfalso.
  unfold keep_term in E. cbn [fst] in E. rnum. apply negb_true_iff in E. rcmp. rewrite Rdec_m7 in E. lra.
Qed.

(** weights actually used *)
Definition weights (coeffs : list R) (k : nat) : list R := match coeffs with [] => repeat 1 k | _ => coeffs end.

Definition pen_R (p : penalty) (e : R) : R := match p with SQUARED => e * e | ABS => Rabs e | HINGE => Rmax e 0 end.
Lemma pen_value_R p e : pen_value p e = pen_R p e.
Proof. destruct p; cbn; auto. apply nmax_R. Qed.

Lemma Rmax_scale w e : 0 <= w -> Rmax (e * w) 0 = w * Rmax e 0.
Proof.
  intros H. destruct (Rle_dec e 0).
  - rewrite (Rmax_right e 0) by lra. rewrite Rmult_0_r. apply Rmax_right.
    pose proof (Rmult_le_compat_r w e 0 H r). lra.
  - rewrite (Rmax_left e 0) by lra. rewrite Rmax_left; [ring|]. apply Rmult_le_pos; lra.
Qed.
Lemma err_row_exact p w (a : aff R) pt : wf_aff a -> p = SQUARED \/ 0 <= w ->
  op_exact pt (err_cost_row p w a) = w * pen_R p (aff_value a pt).
Proof.
  intros Hw Hs. destruct p; cbn [err_cost_row op_exact pen_R].
  - rewrite quad_scale_value, aff_square_value by exact Hw. ring.
  - destruct Hs; [discriminate|]. rewrite aff_scale_value, Rabs_mult, (Rabs_pos_eq w) by assumption. rnum. ring.
  - destruct Hs; [discriminate|]. rewrite aff_scale_value, Rmax_scale by assumption. rnum. ring.
Qed.

Lemma err_weights_spec (coeffs : list R) k : coeffs = [] \/ length coeffs = k ->
  err_weights coeffs k = map (fun w => if Reqb w 0 then None else Some w) (weights coeffs k).
Proof.
  intros H. destruct coeffs as [|c cs]; cbn [err_weights weights].
  - clear H. induction k as [|k IH]; cbn; [reflexivity|]. rewrite <- IH. rnum.
    destruct (Reqb_spec 1 0); [lra|reflexivity].
  - reflexivity.
Qed.

(** the affine models of the rows *)
Definition row_lin (y x : list R) (rows : list (list R)) (vs : list nat) : list (aff R) :=
  map (fun yr => aff_from_val_grad (fst yr) (get_vec x vs) (snd yr) vs) (combine y rows).

Lemma val_grad_in n y (x g : list R) vs : length g = length vs -> Forall (fun v => (v < n)%nat) vs ->
  aff_in n (aff_from_val_grad y x g vs).
Proof.
  intros Hl Hv. unfold aff_from_val_grad, aff_cleanup. split.
  - unfold wf_aff. cbn. rewrite !map_length. reflexivity.
  - cbn [a_vars]. rewrite Forall_map. apply Forall_forall. intros [c v] Hin. apply filter_In in Hin as [Hin _].
    apply in_combine_r in Hin. rewrite Forall_forall in Hv. cbn. auto.
Qed.

Lemma err_ops_exact p (y x : list R) rows vs pt ws :
  Forall (fun r => length r = length vs) rows -> p = SQUARED \/ Forall (fun w => 0 <= w) ws ->
  rsum (op_exact pt) (flat_map (fun t => match snd t with
        | None => [] | Some w => [err_cost_row p w (aff_from_val_grad (fst (fst t)) (get_vec x vs) (snd (fst t)) vs)] end)
      (combine (combine y rows) (map (fun w => if Reqb w 0 then None else Some w) ws))) =
  rsum (fun wa => fst wa * pen_R p (aff_value (snd wa) pt)) (combine ws (row_lin y x rows vs)).
Proof.
  intros Hr. unfold row_lin. revert rows ws Hr; induction y as [|y0 y IH]; intros [|r rows] ws Hr Hs.
  - cbn [combine map flat_map]. destruct ws; rewrite ?rsum_nil; reflexivity.
  - cbn [combine map flat_map]. destruct ws; rewrite ?rsum_nil; reflexivity.
  - cbn [combine map flat_map]. destruct ws; rewrite ?rsum_nil; reflexivity.
  - destruct ws as [|w ws]; [reflexivity|]. inversion Hr; subst.
    cbn [combine map flat_map fst snd]. rewrite rsum_app, rsum_cons, IH; auto.
    2: { destruct Hs as [Hs|Hs]; [auto|right]. inversion Hs; auto. }
    f_equal. cbn [fst snd]. destruct (Reqb_spec w 0) as [->|Hn].
    + rewrite rsum_nil. ring.
    + rewrite rsum_cons, rsum_nil, err_row_exact; [ring|..].
      * apply (val_grad_in (S (list_max vs))); [assumption|]. 
        pose proof (proj1 (list_max_le vs _) (Nat.le_refl _)) as Hm. eapply Forall_impl; [|exact Hm]. cbn; intros; lia.
      * destruct Hs as [Hs|Hs]; [auto|right]. inversion Hs; auto.
Qed.

Lemma err_ops_ok n p coeffs (y x : list R) rows vs : Forall (fun v => (v < n)%nat) vs ->
  Forall (fun r => length r = length vs) rows -> Forall (op_ok n) (err_cost_ops p coeffs y x rows vs).
Proof.
  intros Hv Hr. unfold err_cost_ops. apply Forall_flat_map. apply Forall_forall. intros [[y0 r] o] Hin.
  apply in_combine_l, in_combine_r in Hin. rewrite Forall_forall in Hr. specialize (Hr r Hin).
  cbn [fst snd]. destruct o as [w|]; constructor; [|constructor].
  pose proof (val_grad_in n y0 x r vs Hr Hv) as Ha. destruct p; cbn [err_cost_row op_ok].
  - apply quad_in_scale, quad_in_square, Ha.
  - split; [apply aff_in_scale, Ha|rnum; lra].
  - split; [apply aff_in_scale, Ha|rnum; lra].
Qed.

Lemma err_cost_value_R p coeffs (y : list R) : err_cost_value p coeffs y =
  rsum (fun wy => fst wy * pen_R p (snd wy)) (combine (weights coeffs (length y)) y).
Proof.
  unfold err_cost_value. destruct coeffs as [|c cs]; cbn [weights]; rewrite vsum_R.
  - induction y as [|a y IH]; [reflexivity|]. cbn [map Rsum length repeat combine]. rewrite rsum_cons, IH, pen_value_R. cbn. ring.
  - generalize (c :: cs). intros ws. revert ws; induction y as [|a y IH]; intros [|w ws]; cbn [map combine Rsum]; try reflexivity.
    rewrite rsum_cons, IH, pen_value_R. cbn. rnum. ring.
Qed.

Lemma err_cost_min m p coeffs (y x : list R) rows vs pt :
  Forall (fun v => (v < length m)%nat) vs -> Forall (fun r => length r = length vs) rows ->
  length y = length rows -> coeffs = [] \/ length coeffs = length y ->
  p = SQUARED \/ Forall (fun w => 0 <= w) coeffs -> length pt = length m ->
  let s := build m (err_cost_ops p coeffs y (get_vec x vs) rows vs) in
  min_over_aux (length (fst s)) (obj_feasible (length m) s) (quad_value (co_quad (snd s))) pt
    (rsum (fun wa => fst wa * pen_R p (aff_value (snd wa) pt)) (combine (weights coeffs (length y)) (row_lin y x rows vs))).
Proof.
  intros Hv Hr Hy Hc Hs Hpt s.
  pose proof (build_min m _ pt Hpt (err_ops_ok (length m) p coeffs y (get_vec x vs) rows vs Hv Hr)) as H. fold s in H. cbn beta zeta in H.
  rewrite <- err_ops_exact; [|exact Hr|].
  - unfold err_cost_ops in H. rewrite err_weights_spec in H by (rewrite <- Hy; exact Hc). rewrite <- Hy in H. exact H.
  - destruct Hs as [Hs|Hs]; [auto|right]. destruct coeffs; [|exact Hs]. cbn. clear. induction (length y); cbn; constructor; auto; lra.
Qed.

(** when nothing is dropped the affine models are the first-order models *)
Lemma row_lin_exact (y x : list R) rows vs pt p ws :
  Forall (Forall (fun c => c = 0 \/ 1 / 10 ^ 7 < Rabs c)) rows ->
  rsum (fun wa => fst wa * pen_R p (aff_value (snd wa) pt)) (combine ws (row_lin y x rows vs)) =
  rsum (fun t => fst t * pen_R p (fst (snd t) + rsum (lin_term x pt) (combine (snd (snd t)) vs))) (combine ws (combine y rows)).
Proof.
  intros H. unfold row_lin. rewrite combine_map_r, rsum_map. apply rsum_ext. intros [w [y0 r]] Hin. cbn [fst snd].
  rewrite val_grad_value, small_terms_zero.
  - f_equal. f_equal. ring.
  - apply in_combine_r, in_combine_r in Hin. rewrite Forall_forall in H. auto.
Qed.
Lemma lin_term_self x (l : list (R * nat)) : rsum (lin_term x x) l = 0.
Proof. rewrite (rsum_ext _ (fun _ => 0)); [apply rsum_zero|]. intros; unfold lin_term; ring. Qed.

Lemma combine_drop_snd {A B C} (f : A -> B -> R) (ws : list A) (y : list B) (rows : list C) : length y = length rows ->
  rsum (fun t : A * (B * C) => f (fst t) (fst (snd t))) (combine ws (combine y rows)) = rsum (fun t => f (fst t) (snd t)) (combine ws y).
Proof.
  revert ws rows; induction y as [|b y IH]; intros [|w ws] [|r rows] H; try discriminate; try reflexivity.
  cbn [combine]. rewrite !rsum_cons, IH by (injection H; auto). reflexivity.
Qed.

(** ** constraints from error functions *)
Lemma err_cnt_affs_values coeffs (y x : list R) rows vs :
  Forall (Forall (fun c => c = 0 \/ 1 / 10 ^ 7 < Rabs c)) rows -> length y = length rows ->
  coeffs = [] \/ length coeffs = length y ->
  forall f, f 0 = 0 ->
  rsum (fun a => f (aff_value a x)) (err_cnt_affs coeffs y (get_vec x vs) rows vs) = rsum f (err_cnt_value coeffs y).
Proof.
  intros Hr Hy Hc f Hf0. unfold err_cnt_affs, err_cnt_value.
  assert (Hv : forall y0 r, In r rows -> aff_value (aff_from_val_grad y0 (get_vec x vs) r vs) x = y0).
  { intros y0 r Hin. rewrite val_grad_value, lin_term_self, small_terms_zero; [ring|].
    rewrite Forall_forall in Hr. auto. }
  destruct coeffs as [|c cs].
  - cbn [err_weights]. clear Hc Hr. revert rows Hy Hv. induction y as [|y0 y IH]; intros [|r rows] Hy Hv; try discriminate; [reflexivity|].
    cbn [length repeat combine flat_map fst snd]. rewrite rsum_app, rsum_cons, rsum_nil, rsum_cons, Hv by (left; reflexivity).
    rewrite IH; [ring|injection Hy; auto|]. intros; apply Hv; right; assumption.
  - destruct Hc as [Hc|Hc]; [discriminate|]. cbn [err_weights]. revert Hc. generalize (c :: cs). clear Hr. intros ws.
    revert rows ws Hy Hv. induction y as [|y0 y IH]; intros [|r rows] [|w ws] Hy Hv Hc; try discriminate; [reflexivity|].
    cbn [map combine flat_map fst snd]. rewrite rsum_app, rsum_cons, IH.
    + f_equal. rnum. destruct (Reqb_spec w 0) as [->|Hn]; [rewrite rsum_nil, Rmult_0_r; symmetry; exact Hf0|].
      rewrite rsum_cons, rsum_nil, aff_scale_value, Hv by (left; reflexivity). ring.
    + injection Hy; auto.
    + intros; apply Hv; right; assumption.
    + injection Hc; auto.
Qed.

(** ** scalar-function costs *)
Lemma vdot_rsum (a b : list R) : vdot a b = rsum (fun p => fst p * snd p) (combine a b).
Proof. unfold vdot. rewrite vsum_R. reflexivity. Qed.
Lemma Rdec_half : Rdec 5 (-1) = / 2.
Proof. unfold Rdec. simpl. field. Qed.

Lemma func_cost_terms (g h x : list R) vs pt : length g = length vs -> length h = length vs -> length x = length vs ->
  - rsum (fun p => fst p * snd p) (combine g x) +
  / 2 * rsum (fun p => fst p * snd p) (combine x (map (fun p => fst p * snd p) (combine h x))) +
  rsum (tm pt) (combine (map (fun p => fst p - snd p) (combine g (map (fun p => fst p * snd p) (combine h x)))) vs) +
  rsum (qm pt) (combine (map (fun a => a * / 2) h) (combine vs vs)) =
  rsum (fun t => let '((g, h), (x, v)) := t in g * (nth v pt 0 - x) + / 2 * h * (nth v pt 0 - x) * (nth v pt 0 - x))
    (combine (combine g h) (combine x vs)).
Proof.
  revert g h x; induction vs as [|v vs IH]; intros [|g0 g] [|h0 h] [|x0 x] Hg Hh Hx; try discriminate.
  - cbn. rewrite !rsum_nil. ring.
  - cbn [combine map fst snd]. rewrite !rsum_cons. cbn [fst snd].
    rewrite <- (IH g h x) by (cbn in *; lia). field.
Qed.

Lemma func_cost_diag_value val (grad hess x : list R) vs pt :
  length grad = length vs -> length hess = length vs -> length x = length vs ->
  quad_value (func_cost_diag val grad hess x vs) pt =
  val + rsum (fun t => let '((g, h), (x, v)) := t in g * (nth v pt 0 - x) + / 2 * Rmax h 0 * (nth v pt 0 - x) * (nth v pt 0 - x))
    (combine (combine grad hess) (combine x vs)).
Proof.
  intros Hg Hh Hx. rewrite quad_value_sum, aff_value_sum. cbn [func_cost_diag q_aff q_coeffs q_vars1 q_vars2 a_const a_coeffs a_vars].
  rewrite !vdot_rsum. rnum. rewrite Rdec_half.
  pose proof (func_cost_terms grad (map (fun a => nmax a 0) hess) x vs pt Hg ltac:(rewrite map_length; exact Hh) Hx) as E.
  match type of E with _ = ?r => assert (E2 : r = rsum (fun t => let '((g, h), (x, v)) := t in g * (nth v pt 0 - x) + / 2 * Rmax h 0 * (nth v pt 0 - x) * (nth v pt 0 - x))
    (combine (combine grad hess) (combine x vs))) end.
  { rewrite combine_map_r, combine_map_l, rsum_map. apply rsum_ext. intros [[g h] [x0 v]] _. cbn [fst snd].
    rewrite nmax_R. reflexivity. }
  rewrite <- E2, <- E. ring.
Qed.
