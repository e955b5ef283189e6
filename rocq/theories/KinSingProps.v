(** * Singularity avoidance (C69, C99) *)
From Coq Require Import ZArith List Bool Reals Lra Lia Arith.
From Verif Require Import Num NumFacts Common ModelingModel ArrayModel TrajoptModel SubsetProps KinModel KinProofs.
Import ListNotations.
Local Open Scope R_scope.

(** ** Joint subsets *)
Lemma nodup_pos (l : list nat) i j n : NoDup l -> nth_error l i = Some n -> nth_error l j = Some n -> i = j.
Proof. intros Hd Hi Hj. apply (proj1 (NoDup_nth_error l) Hd); [apply nth_error_Some|]; congruence. Qed.
Lemma first_nodup (names : list nat) k s : NoDup names -> nth_error names k = Some s -> first_at names k s.
Proof.
  intros Hd Hk. destruct (find_in names s) as (k' & Hk'); [eapply nth_error_In; eauto|]. apply find_some in Hk'.
  replace k with k'; [exact Hk'|]. destruct Hk' as [Hk' _]. apply (nodup_pos names k' k s); auto.
Qed.

(** the values of the joints [snames] in x, whose joints are [names] *)
Definition restricts (names snames : list nat) (x s : list R) : Prop :=
  length s = length snames /\ forall i n k, nth_error snames i = Some n -> nth_error names k = Some n -> nth_error s i = nth_error x k.

Lemma subset_vals_ok (names snames : list nat) (g x : list R) :
  NoDup names -> incl snames names -> length x = length names -> length g = length snames ->
  exists s, subset_vals false names snames g x = Done s /\ restricts names snames x s.
Proof.
  intros Hd Hi Hx Hg. destruct (C57_get names x snames g Hx Hg) as [H _]. destruct (H Hi) as (r & E & L & V).
  exists r. unfold subset_vals. rewrite E. cbn. split; [reflexivity|]. split; [exact L|]. intros i n k H1 H2. apply (V i n k H1). apply first_nodup; auto.
Qed.
Lemma restricts_fun names snames x s s' : incl snames names -> length x = length names ->
  restricts names snames x s -> restricts names snames x s' -> s = s'.
Proof.
  intros Hi Hx [L V] [L' V']. apply list_eq. intros i. destruct (Nat.ltb_spec i (length snames)) as [H|H].
  - destruct (nth_error snames i) as [n|] eqn:E; [|apply nth_error_None in E; lia].
    destruct (In_nth_error names n) as (k & Ek); [apply Hi; eapply nth_error_In; eauto|]. rewrite (V i n k), (V' i n k); auto.
  - rewrite (proj2 (nth_error_None s i)), (proj2 (nth_error_None s' i)) by lia. reflexivity.
Qed.

(** C69, builds with assertions: the error is that of the subset's joint values, the gradient has the subset's
    entries at the subset's joints and 0 at the others.  Missing: builds without assertions (C69_refuted) *)
Theorem C69_partial : forall (err jac : list R -> list R) (names snames : list nat) (g g' x : list R),
  NoDup names -> NoDup snames -> incl snames names -> length x = length names -> length g = length snames -> length g' = length names ->
  (forall s, length s = length snames -> length (jac s) = length snames) ->
  exists s, restricts names snames x s /\ subset_err false err names snames g x = Done (err s) /\
  exists r, subset_jac false jac names snames g g' x = Done r /\ length r = length names /\
  (forall i n k, nth_error snames i = Some n -> nth_error names k = Some n -> nth k r 0 = nth i (jac s) 0) /\
  (forall n k, ~ In n snames -> nth_error names k = Some n -> nth k r 0 = 0).
Proof.
  intros err jac names snames g g' x Hd Hs Hi Hx Hg Hg' Hj. destruct (subset_vals_ok names snames g x Hd Hi Hx Hg) as (s & E & Hr).
  exists s. split; [exact Hr|]. unfold subset_err, subset_jac. rewrite E. cbn [rdo]. split; [reflexivity|].
  destruct Hr as [Ls Vs].
  destruct (C57_update names (repeat 0 (length names)) snames (jac s) g') as [H _]; [apply repeat_length|exact Hg'|apply Hj; exact Ls|].
  destruct (H Hi) as (r & E' & L & V0 & V1). exists r. rnum. rewrite E'. cbn [rdo fst snd]. split; [reflexivity|]. split; [exact L|]. split.
  - intros i n k H1 H2. assert (K := V1 i n k H1 (nodup_last snames i n Hs H1) (first_nodup names k n Hd H2)).
    destruct (nth_error r k) as [a|] eqn:Ea.
    + rewrite (nth_error_nth r k 0 Ea). symmetry. apply nth_error_nth. congruence.
    + apply nth_error_None in Ea. assert (k < length names)%nat by (apply nth_error_Some; congruence). lia.
  - intros n k Hn Hk. assert (K : nth_error r k = nth_error (repeat 0 (length names)) k).
    { apply V0. intros s' Hin [F _]. congruence. }
    assert (Hlt : (k < length names)%nat) by (apply nth_error_Some; congruence).
    rewrite (nth_error_nth' (repeat 0 (length names)) 0) in K by (rewrite repeat_length; auto). rewrite nth_repeat in K. apply nth_error_nth. exact K.
Qed.
Print Assumptions C69_partial.

Lemma upd_nth_error (x : list R) k v i : nth_error (upd x k v) i = if (i =? k)%nat then (if (k <? length x)%nat then Some v else None) else nth_error x i.
Proof.
  revert k i; induction x as [|a x IH]; intros [|k] [|i]; cbn; auto.
  - destruct (i =? k)%nat; reflexivity.
  - rewrite IH. destruct (Nat.eqb_spec i k) as [->|]; auto.
Qed.

(** C69, builds with assertions: so the subset gradient is the gradient of the subset error *)
Theorem C69_gradient_partial : forall (err jac : list R -> list R) (names snames : list nat) (g g' x : list R),
  NoDup names -> NoDup snames -> incl snames names -> length x = length names -> length g = length snames -> length g' = length names ->
  (forall s, length s = length snames -> length (jac s) = length snames) ->
  (forall s i, length s = length snames -> (i < length snames)%nat -> partial (fun s => nth 0 (err s) 0) s i (nth i (jac s) 0)) ->
  exists r, subset_jac false jac names snames g g' x = Done r /\ length r = length names /\
  forall k, (k < length names)%nat ->
    partial (fun y => match subset_err false err names snames g y with Done e => nth 0 e 0 | _ => 0 end) x k (nth k r 0).
Proof.
  intros err jac names snames g g' x Hd Hs Hi Hx Hg Hg' Hj Hgrad.
  destruct (C69_partial err jac names snames g g' x Hd Hs Hi Hx Hg Hg' Hj) as (s & Rs & _ & r & E & L & V1 & V0).
  exists r. split; [exact E|]. split; [exact L|]. intros k Hk.
  assert (Ev : forall t, exists s', restricts names snames (upd x k t) s' /\ subset_err false err names snames g (upd x k t) = Done (err s')).
  { intros t. destruct (C69_partial err jac names snames g g' (upd x k t) Hd Hs Hi) as (s' & R' & E' & _); auto; [rewrite upd_length; auto|]. eauto. }
  destruct (nth_error names k) as [n|] eqn:En; [|apply nth_error_None in En; lia].
  destruct (in_dec Nat.eq_dec n snames) as [Hin|Hout].
  - destruct (In_nth_error _ _ Hin) as (i & Ei). assert (Hil : (i < length snames)%nat) by (apply nth_error_Some; congruence).
    rewrite (V1 i n k Ei En). destruct Rs as [Ls Vs]. assert (G := Hgrad s i Ls Hil). unfold partial in *.
    replace (nth k x 0) with (nth i s 0).
    2:{ assert (K := Vs i n k Ei En). rewrite (nth_error_nth' s 0) in K by lia. rewrite (nth_error_nth' x 0) in K by lia. congruence. }
    eapply d_ext; [|exact G]. intros t. cbv beta. destruct (Ev t) as (s' & R' & ->). f_equal. f_equal.
    apply (restricts_fun names snames (upd x k t)); auto; [rewrite upd_length; auto|]. split; [rewrite upd_length; auto|].
    intros j m l Ej El. rewrite !upd_nth_error. destruct (Nat.eqb_spec j i) as [->|Hji].
    + assert (m = n) by congruence. subst m. assert (l = k) by (apply (nodup_pos names l k n); auto). subst l.
      rewrite Nat.eqb_refl. destruct (Nat.ltb_spec i (length s)); [|lia]. destruct (Nat.ltb_spec k (length x)); [reflexivity|lia].
    + destruct (Nat.eqb_spec l k) as [->|Hlk]; [|apply (Vs j m l); auto]. exfalso. apply Hji.
      assert (m = n) by congruence. subst m. apply (nodup_pos snames j i n); auto.
  - rewrite (V0 n k Hout En). unfold partial. eapply d_ext; [|apply (d_const (nth 0 (err s) 0))].
    intros t. cbv beta. destruct (Ev t) as (s' & R' & ->). f_equal. f_equal.
    apply (restricts_fun names snames (upd x k t)); auto; [rewrite upd_length; auto|]. destruct Rs as [Ls Vs]. split; [auto|].
    intros j m l Ej El. rewrite upd_nth_error. destruct (Nat.eqb_spec l k) as [->|Hlk]; [|apply (Vs j m l); auto].
    exfalso. apply Hout. assert (m = n) by congruence. subst m. eapply nth_error_In; eauto.
Qed.
Print Assumptions C69_gradient_partial.

(** C69, builds without assertions: neither result depends on the joint values *)
Theorem C69_ndebug : forall (err jac : list R -> list R) (names snames : list nat) (g g' x x' : list R),
  subset_err true err names snames g x = subset_err true err names snames g x' /\
  subset_err true err names snames g x = Done (err g) /\ subset_jac true jac names snames g g' x = Done g'.
Proof. intros. split; [reflexivity|split; reflexivity]. Qed.
Print Assumptions C69_ndebug.
(** C69: so they are not those of the subset's joint values *)
Theorem C69_refuted : exists (err : list R -> list R) (names snames : list nat) (g x s : list R),
  NoDup names /\ NoDup snames /\ incl snames names /\ length x = length names /\ length g = length snames /\
  restricts names snames x s /\ subset_err true err names snames g x <> Done (err s).
Proof.
  exists (fun s => s), [1; 2; 3]%nat, [3]%nat, [0], [1; 2; 5], [5]. split; [repeat constructor; cbn; lia|]. split; [repeat constructor; cbn; lia|].
  split; [intros a [<-|[]]; cbn; auto|]. split; [reflexivity|]. split; [reflexivity|]. split.
  - split; [reflexivity|]. intros i n k H1 H2. destruct i as [|[|i]]; cbn in H1; try discriminate. injection H1 as <-.
    destruct k as [|[|[|[|k]]]]; cbn in H2; try discriminate. reflexivity.
  - cbn. intros [= H]. lra.
Qed.
Print Assumptions C69_refuted.
Example C69_ex : subset_err false (fun s => s) [1; 2; 3]%nat [3; 1]%nat [0; 0] [1; 2; 5] = Done [5; 1] /\
  subset_jac false (fun s => s) [1; 2; 3]%nat [3; 1]%nat [0; 0] [7; 7; 7] [1; 2; 5] = Done [1; 0; 5].
Proof. split; reflexivity. Qed.

(** ** The error and its gradient *)
(** C99: as a constraint (error at most 0) the term keeps the smallest singular value at or above 0.1 *)
Theorem C99_constraint : forall lambda sv : R, 0 <= sv -> 0 < lambda -> (singularity_err lambda sv <= 0 <-> / 10 <= sv).
Proof.
  intros lambda sv Hs Hl. unfold singularity_err. rnum. assert (D : Rdec 1 (-1) = / 10) by (unfold Rdec; change (Pos.to_nat 1) with 1%nat; simpl; field). rewrite D.
  replace (1 / (sv + lambda) - 1 / (/ 10 + lambda)) with ((/ 10 - sv) * / ((sv + lambda) * (/ 10 + lambda))) by (field; lra).
  assert (P : 0 < / ((sv + lambda) * (/ 10 + lambda))) by (apply Rinv_0_lt_compat, Rmult_lt_0_compat; lra). split; intros H.
  - apply Rnot_lt_le. intros Hlt. assert (0 < (/ 10 - sv) * / ((sv + lambda) * (/ 10 + lambda))) by (apply Rmult_lt_0_compat; lra). lra.
  - assert (0 <= (sv - / 10) * / ((sv + lambda) * (/ 10 + lambda))) by (apply Rmult_le_pos; lra). lra.
Qed.
Print Assumptions C99_constraint.
(** C99: the gradient is the exact one if [dsv] are the partial derivatives of the smallest singular value *)
Theorem C99_gradient : forall (lambda : R) (sv : list R -> R) (q dsv : list R), 0 <= sv q -> 0 < lambda -> length dsv = length q ->
  (forall k, (k < length q)%nat -> partial sv q k (nth k dsv 0)) ->
  length (singularity_jac lambda (sv q) dsv) = length q /\
  forall k, (k < length q)%nat -> partial (fun y => singularity_err lambda (sv y)) q k (nth k (singularity_jac lambda (sv q) dsv) 0).
Proof.
  intros lambda sv q dsv Hs Hl Hd Hp. unfold singularity_jac. split; [rewrite map_length; auto|]. intros k Hk. rnum.
  set (f := fun d : R => d * (-1 / ((sv q + lambda) * (sv q + lambda)))).
  rewrite (nth_indep _ 0 (f 0)) by (rewrite map_length; lia). rewrite (map_nth f). unfold f.
  unfold partial, singularity_err. rnum.
  eapply d_eq; [|apply d_minus; [apply d_div; [apply (d_const 1)|apply d_plus; [apply (Hp k Hk)|apply (d_const lambda)]|]|apply d_const]].
  - cbv beta. rewrite !upd_same. field. lra.
  - cbv beta. rewrite upd_same. lra.
Qed.
Print Assumptions C99_gradient.
(** C99: as a cost, however, the absolute value penalises being far from a singularity: of two configurations
    the one with the larger smallest singular value costs more *)
Theorem C99_refuted : exists lambda sv sv' : R, 0 < lambda /\ / 10 <= sv < sv' /\
  err_cost_value ABS [] [singularity_err lambda sv] < err_cost_value ABS [] [singularity_err lambda sv'].
Proof.
  exists (1 / 10), (/ 10), (9 / 10). split; [lra|]. split; [lra|]. unfold err_cost_value, singularity_err. cbn [map pen_value]. rewrite !vsum_R. cbn [Rsum]. rnum.
  assert (D : Rdec 1 (-1) = / 10) by (unfold Rdec; change (Pos.to_nat 1) with 1%nat; simpl; field). rewrite D.
  replace (1 / (/ 10 + 1 / 10) - 1 / (/ 10 + 1 / 10)) with 0 by ring. rewrite Rabs_R0.
  replace (1 / (9 / 10 + 1 / 10) - 1 / (/ 10 + 1 / 10)) with (- 4) by field. rewrite Rabs_left by lra. lra.
Qed.
Print Assumptions C99_refuted.
(** C99: below 0.1 the cost does fall as the smallest singular value grows *)
Theorem C99_cost_partial : forall (lambda sv sv' : R), 0 < lambda -> 0 <= sv < sv' -> sv' <= / 10 ->
  err_cost_value ABS [] [singularity_err lambda sv'] < err_cost_value ABS [] [singularity_err lambda sv].
Proof.
  intros lambda sv sv' Hl [H0 H1] H2. unfold err_cost_value, singularity_err. cbn [map pen_value]. rewrite !vsum_R. cbn [Rsum]. rnum.
  assert (D : Rdec 1 (-1) = / 10) by (unfold Rdec; change (Pos.to_nat 1) with 1%nat; simpl; field). rewrite D. unfold Rdiv. rewrite !Rmult_1_l.
  assert (A : / (sv' + lambda) < / (sv + lambda)) by (apply Rinv_lt_contravar; [apply Rmult_lt_0_compat|]; lra).
  assert (B : / (/ 10 + lambda) <= / (sv' + lambda)) by (apply Rinv_le_contravar; lra).
  rewrite !Rabs_pos_eq by lra. lra.
Qed.
Print Assumptions C99_cost_partial.
Example C99_ex : singularity_err (1 / 10) (9 / 10) = -4 /\ singularity_jac 1 1 [2; 4] = [- (1 / 2); -1].
Proof.
  unfold singularity_err, singularity_jac. rnum.
  assert (D : Rdec 1 (-1) = / 10) by (unfold Rdec; change (Pos.to_nat 1) with 1%nat; simpl; field). rewrite D. split; [field|].
  cbn [map]. repeat (apply (f_equal2 (@cons R)); [field|]). reflexivity.
Qed.
