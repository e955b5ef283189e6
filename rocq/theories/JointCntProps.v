(** * Theorems about the joint constraints of trajopt_ifopt (C29, C30) *)
From Coq Require Import List ZArith Bool Arith Reals Lra Lia.
From Verif Require Import Num NumFacts RSums IfoptModel IfoptProofs NodesModel NodesProps QpCaseProps IfoptQpProps JointCntModel.
Import ListNotations.
Open Scope R_scope.

(** ** Specification: differences of order m *)
Fixpoint fdiff (m : nat) (q : nat -> R) (i : nat) : R := match m with O => q i | S m => fdiff m q (S i) - fdiff m q i end.
Definition order (k : kind) : nat := match k with Vel => 1 | Accel => 2 | Jerk => 3 end.
(** row block i of n positions uses the positions base, base + 1, ..., base + order: those from i on, or
    at the end of the trajectory those up to i *)
Definition base (k : kind) (n i : nat) : nat := if (i + order k <? n)%nat then i else (i - order k)%nat.
Definition var0 : var R := {| v_name := 0; v_index := 0; v_vals := []; v_bnds := [] |}.
(** joint j of position t in the vector of all variables *)
Definition joint (vs : list (var R)) (x : list R) (j t : nat) : R := nth (v_index (nth t vs var0) + j) x 0.
Definition increasing (vs : list (var R)) : Prop := forall t, (S t < length vs)%nat -> (v_index (nth t vs var0) < v_index (nth (S t) vs var0))%nat.

Lemma over_blocks_length {A} nb dof (f : nat -> nat -> A) : length (over_blocks nb dof f) = (nb * dof)%nat.
Proof.
  unfold over_blocks. rewrite <- (seq_length nb 0) at 2. induction (seq 0 nb) as [|a l IH]; [reflexivity|]. cbn [flat_map length].
  rewrite app_length, map_length, seq_length, IH. reflexivity.
Qed.
Lemma over_blocks_nth {A} nb dof (f : nat -> nat -> A) i j d : (i < nb)%nat -> (j < dof)%nat -> nth (i * dof + j) (over_blocks nb dof f) d = f i j.
Proof.
  intros Hi Hj. unfold over_blocks. enough (G : forall s, nth (i * dof + j) (flat_map (fun i => map (f i) (seq 0 dof)) (seq s nb)) d = f (s + i)%nat j) by apply (G 0%nat).
  revert i Hi; induction nb as [|nb IH]; intros i Hi s; [lia|]. cbn [seq flat_map]. destruct i as [|i].
  - rewrite app_nth1 by (rewrite map_length, seq_length; lia). cbn [Nat.mul Nat.add]. rewrite (nth_indep _ d (f s 0%nat)) by (rewrite map_length, seq_length; lia).
    rewrite map_nth, seq_nth by lia. f_equal; lia.
  - rewrite app_nth2 by (rewrite map_length, seq_length; nia). rewrite map_length, seq_length.
    replace (S i * dof + j - dof)%nat with (i * dof + j)%nat by nia. rewrite IH by lia. f_equal; lia.
Qed.
Lemma over_blocks_map {A B} (g : A -> B) nb dof f : map g (over_blocks nb dof f) = over_blocks nb dof (fun i j => g (f i j)).
Proof. unfold over_blocks. rewrite !flat_map_concat_map, concat_map, map_map. f_equal. apply map_ext. intros i. rewrite map_map. reflexivity. Qed.
Lemma over_blocks_ext {A} nb dof (f g : nat -> nat -> A) : (forall i j, (i < nb)%nat -> (j < dof)%nat -> f i j = g i j) -> over_blocks nb dof f = over_blocks nb dof g.
Proof.
  intros H. unfold over_blocks. rewrite !flat_map_concat_map. f_equal. apply map_ext_in. intros i Hi. apply in_seq in Hi.
  apply map_ext_in. intros j Hj. apply in_seq in Hj. apply H; lia.
Qed.
Lemma over_blocks_plus nb dof (f g : nat -> nat -> R) : vplus (over_blocks nb dof f) (over_blocks nb dof g) = over_blocks nb dof (fun i j => f i j + g i j).
Proof.
  unfold over_blocks. generalize (seq 0 nb). intros l. induction l as [|i l IH]; [reflexivity|]. cbn [flat_map].
  rewrite <- IH. clear. unfold vplus.
  enough (G : forall m r1 r2, map (fun p => fst p + snd p) (combine (map (f i) m ++ r1) (map (g i) m ++ r2)) =
                map (fun j => f i j + g i j) m ++ map (fun p => fst p + snd p) (combine r1 r2)) by apply G.
  induction m as [|a m IH]; intros; [reflexivity|]. cbn. f_equal. apply IH.
Qed.

(** ** Reading the variables *)
Lemma vars_set_at (x : list R) vs : Forall (fun v : var R => (0 < v_size v)%nat /\ (v_index v + v_size v <= length x)%nat) vs ->
  vars_set x vs = Val (map (fun v => {| v_name := v_name v; v_index := v_index v; v_vals := firstn (v_size v) (skipn (v_index v) x); v_bnds := v_bnds v |}) vs).
Proof.
  induction vs as [|v vs IH]; intros H; [reflexivity|]. inversion_clear H. cbn [vars_set map]. unfold var_set.
  rewrite !(proj2 (Nat.ltb_lt _ _)) by lia. cbn [andb rbind]. rewrite IH by assumption. reflexivity.
Qed.
Lemma nth_segment {A} (x : list A) s n j d : (j < n)%nat -> (s + n <= length x)%nat -> nth j (firstn n (skipn s x)) d = nth (s + j) x d.
Proof.
  intros Hj L. rewrite <- (firstn_skipn s x) at 2. rewrite app_nth2; rewrite firstn_length_le by lia; [|lia]. replace (s + j - s)%nat with j by lia.
  rewrite <- (firstn_skipn n (skipn s x)) at 2. rewrite app_nth1; [reflexivity|]. rewrite firstn_length_le; [exact Hj|]. rewrite skipn_length. lia.
Qed.
Lemma map_nth_in {A B} (f : A -> B) l i d d' : (i < length l)%nat -> nth i (map f l) d = f (nth i l d').
Proof. intros H. rewrite (nth_indep _ d (f d')) by (rewrite map_length; exact H). apply map_nth. Qed.

Definition kind_value (k : kind) (q : nat -> nat -> R) (n : nat) : nat -> nat -> R :=
  match k with Vel => vel_value q | Accel => accel_value q n | Jerk => jerk_value q n end.
Definition kind_row (k : kind) (c : nat -> nat) (n : nat) : nat -> nat -> srow R :=
  match k with Vel => vel_row c | Accel => accel_row c n | Jerk => jerk_row c n end.
Lemma kind_value_ext k q q' n i j : (min_vars k <= n)%nat -> (i < blocks k n)%nat -> (forall t, (t < n)%nat -> q t j = q' t j) ->
  kind_value k q n i j = kind_value k q' n i j.
Proof.
  intros Hn Hi E. destruct k; cbn [kind_value min_vars blocks] in *; unfold vel_value, accel_value, jerk_value.
  - rewrite !E by lia. reflexivity.
  - destruct (Nat.ltb_spec i (n - 2)); rewrite !E by lia; reflexivity.
  - destruct (Nat.ltb_spec i (n - 3)); rewrite !E by lia; reflexivity.
Qed.
Lemma kind_value_diff k (q : nat -> nat -> R) n i j : (min_vars k <= n)%nat -> (i < blocks k n)%nat ->
  kind_value k q n i j = fdiff (order k) (fun t => q t j) (base k n i).
Proof.
  intros Hn Hi. unfold base. destruct (Nat.ltb_spec (i + order k) n) as [H|H]; destruct k; cbn [kind_value min_vars blocks order] in *; try lia; cbn [fdiff];
    unfold vel_value, accel_value, jerk_value.
  - rewrite Nat.add_1_r. rnum. reflexivity.
  - destruct (Nat.ltb_spec i (n - 2)); [|lia]. replace (i + 1)%nat with (S i) by lia. replace (i + 2)%nat with (S (S i)) by lia. rnum. lra.
  - destruct (Nat.ltb_spec i (n - 3)); [|lia]. replace (i + 1)%nat with (S i) by lia. replace (i + 2)%nat with (S (S i)) by lia. replace (i + 3)%nat with (S (S (S i))) by lia. rnum. lra.
  - destruct (Nat.ltb_spec i (n - 2)); [lia|]. replace (S (S (i - 2))) with i by lia. replace (S (i - 2)) with (i - 1)%nat by lia. rnum. lra.
  - destruct (Nat.ltb_spec i (n - 3)); [lia|]. replace (S (S (S (i - 3)))) with i by lia. replace (S (S (i - 3))) with (i - 1)%nat by lia. replace (S (i - 3)) with (i - 2)%nat by lia. rnum. lra.
Qed.
Lemma kind_row_dot k (c : nat -> nat) n i j (d : list R) : srow_dot (kind_row k c n i j) d = kind_value k (fun t j => nth (c t + j) d 0) n i j.
Proof.
  rewrite srow_dot_R. destruct k; cbn [kind_row kind_value]; unfold vel_row, accel_row, jerk_row, vel_value, accel_value, jerk_value.
  - rewrite !rsum_cons, rsum_nil. cbn [fst snd]. rnum. lra.
  - destruct (i <? n - 2)%nat; rewrite !rsum_cons, rsum_nil; cbn [fst snd]; rnum; lra.
  - destruct (i <? n - 3)%nat; rewrite !rsum_cons, rsum_nil; cbn [fst snd]; rnum; lra.
Qed.
Lemma kind_value_plus k (q r : nat -> nat -> R) n i j : kind_value k (fun t j => q t j + r t j) n i j = kind_value k q n i j + kind_value k r n i j.
Proof.
  destruct k; cbn [kind_value]; unfold vel_value, accel_value, jerk_value.
  - rnum. lra.
  - destruct (i <? n - 2)%nat; rnum; lra.
  - destruct (i <? n - 3)%nat; rnum; lra.
Qed.
Lemma increasing_lt vs s t : increasing vs -> (s < t)%nat -> (t < length vs)%nat -> (v_index (nth s vs var0) < v_index (nth t vs var0))%nat.
Proof.
  intros H Hst Ht. induction Hst as [|t Hst IH]; [apply H; exact Ht|]. etransitivity; [apply IH; lia|apply H; exact Ht].
Qed.
Lemma kind_row_ordered k vs i j : (min_vars k <= length vs)%nat -> (i < blocks k (length vs))%nat -> increasing vs ->
  ordered (kind_row k (fun i => nth i (map v_index vs) 0%nat) (length vs) i j) = true.
Proof.
  intros Hn Hi Inc. set (c := fun i => _). assert (L : forall s t, (s < t)%nat -> (t < length vs)%nat -> (c s < c t)%nat).
  { intros s t Hst Ht. unfold c. rewrite !(map_nth_in v_index vs _ 0%nat var0) by lia. apply increasing_lt; assumption. }
  assert (B : forall s t, (s < t)%nat -> (t < length vs)%nat -> (c s + j <? c t + j)%nat = true) by (intros s t H1 H2; apply Nat.ltb_lt; specialize (L s t H1 H2); lia).
  destruct k; cbn [kind_row min_vars blocks] in *; unfold vel_row, accel_row, jerk_row.
  - cbn [ordered fst]. rewrite B by lia. reflexivity.
  - destruct (Nat.ltb_spec i (length vs - 2)); cbn [ordered fst]; rewrite !B by lia; reflexivity.
  - destruct (Nat.ltb_spec i (length vs - 3)); cbn [ordered fst]; rewrite !B by lia; reflexivity.
Qed.
Lemma concat_repeat_blocks {A} (l : list A) nb d : concat (repeat l nb) = over_blocks nb (length l) (fun _ j => nth j l d).
Proof.
  unfold over_blocks. rewrite flat_map_concat_map. assert (E : forall i : nat, map (fun j => nth j l d) (seq 0 (length l)) = l).
  { intros _. apply (nth_ext _ _ d d); [rewrite map_length, seq_length; reflexivity|]. intros n Hn. rewrite map_length, seq_length in Hn.
    rewrite (map_nth_in (fun j => nth j l d) (seq 0 (length l)) n d 0%nat) by (rewrite seq_length; exact Hn). rewrite seq_nth by exact Hn. reflexivity. }
  f_equal. generalize 0%nat at 2. induction nb as [|nb IH]; intros s0; [reflexivity|]. cbn [repeat seq map]. rewrite <- IH, (E 0%nat). reflexivity.
Qed.
Lemma repeat_blocks {A} (w : A) nb dof : repeat w (dof * nb) = over_blocks nb dof (fun _ _ => w).
Proof.
  apply (nth_ext _ _ w w); [rewrite repeat_length, over_blocks_length; lia|]. intros n Hn. rewrite repeat_length in Hn.
  assert (dof <> 0)%nat by nia. rewrite (Nat.div_mod n dof) by assumption. rewrite (Nat.mul_comm dof), over_blocks_nth.
  - rewrite nth_repeat. reflexivity.
  - apply Nat.div_lt_upper_bound; lia.
  - apply Nat.mod_upper_bound. assumption.
Qed.
Lemma jcnt_new_inv k targets vs coeffs (c : jcnt R) : jcnt_new k targets vs coeffs = Val c ->
  jc_kind c = k /\ jc_dof c = length targets /\ jc_vars c = vs /\ (min_vars k <= length vs)%nat /\ (0 < length targets)%nat /\
  jc_bounds c = over_blocks (blocks k (length vs)) (length targets) (fun _ j => at_value (nth j targets 0)) /\
  exists f, jc_coeffs c = over_blocks (blocks k (length vs)) (length targets) (fun _ j => f j) /\
    ((length coeffs = length targets /\ (forall j, (j < length targets)%nat -> f j = nth j coeffs 0)) \/
     (coeffs = [] /\ forall j, f j = default_coeff k) \/ (exists w, coeffs = [w] /\ forall j, f j = w)) /\ (forall j, (j < length targets)%nat -> 0 < f j).
Proof.
  unfold jcnt_new. destruct (Nat.ltb_spec (length vs) (min_vars k)) as [|Hm]; [discriminate|]. destruct (Nat.eqb_spec (length targets) 0) as [|Hd]; [discriminate|].
  destruct (forallb positive coeffs) eqn:P; [|discriminate]. cbn [negb]. rewrite forallb_forall in P.
  assert (P' : forall w, In w coeffs -> 0 < w) by (intros w Hw; specialize (P w Hw); unfold positive in P; apply Rltb_true in P; exact P).
  assert (B : concat (repeat (map at_value targets) (blocks k (length vs))) = over_blocks (blocks k (length vs)) (length targets) (fun _ j => at_value (nth j targets 0))).
  { rewrite (concat_repeat_blocks _ _ (at_value 0)), map_length. apply over_blocks_ext. intros i j _ _. apply map_nth. }
  destruct (Nat.eqb_spec (length coeffs) (length targets)) as [L|L].
  - intros [= <-]. cbn. repeat (split; [first [reflexivity|lia|exact B]|]). exists (fun j => nth j coeffs 0). split; [rewrite <- L; apply concat_repeat_blocks|]. split; [left; auto|].
    intros j Hj. apply P', nth_In. lia.
  - destruct coeffs as [|w [|w' ws]]; [| |discriminate].
    + intros [= <-]. cbn. repeat (split; [first [reflexivity|lia|exact B]|]). exists (fun _ => default_coeff k). split; [apply repeat_blocks|]. split; [right; left; auto|]. intros _ _. destruct k; cbn; rnum; lra.
    + intros [= <-]. cbn. repeat (split; [first [reflexivity|lia|exact B]|]). exists (fun _ => w). split; [apply repeat_blocks|]. split; [right; right; eauto|]. intros _ _. apply P'. left. reflexivity.
Qed.


Lemma jcnt_at_spec (c : jcnt R) (x : list R) : (0 < jc_dof c)%nat -> (min_vars (jc_kind c) <= length (jc_vars c))%nat -> increasing (jc_vars c) ->
  Forall (fun v => v_size v = jc_dof c /\ (v_index v + v_size v <= length x)%nat) (jc_vars c) ->
  let n := length (jc_vars c) in let nb := blocks (jc_kind c) n in
  exists cx, jcnt_at x c = Val cx /\
    jcnt_values cx = Val (over_blocks nb (jc_dof c) (kind_value (jc_kind c) (fun t j => joint (jc_vars c) x j t) n)) /\
    jcnt_jacobian cx = Val (over_blocks nb (jc_dof c) (kind_row (jc_kind c) (fun i => nth i (map v_index (jc_vars c)) 0%nat) n)).
Proof.
  intros Hd Hm Inc F n nb. unfold jcnt_at. rewrite vars_set_at by (eapply Forall_impl; [|exact F]; cbn; lia). cbn [rbind]. eexists. split; [reflexivity|].
  rewrite Forall_forall in F. split.
  - unfold jcnt_values. cbn [jc_vars jc_dof jc_kind]. rewrite map_length, map_map. cbn [v_vals].
    destruct (forallb _ _) eqn:B.
    + f_equal. fold n nb. change match jc_kind c with Vel => vel_value _ | Accel => accel_value _ _ | Jerk => jerk_value _ _ end with
        (kind_value (jc_kind c) (fun i k => nth k (nth i (map (fun x0 : var R => firstn (v_size x0) (skipn (v_index x0) x)) (jc_vars c)) []) 0) n).
      apply over_blocks_ext. intros i j Hi Hj. apply kind_value_ext; [exact Hm|exact Hi|]. intros t Ht.
      assert (It : In (nth t (jc_vars c) var0) (jc_vars c)) by (apply nth_In; exact Ht). specialize (F _ It). destruct F as (F1 & F2).
      rewrite (map_nth_in (fun x0 => firstn (v_size x0) (skipn (v_index x0) x)) (jc_vars c) t [] var0) by exact Ht. apply nth_segment; lia.
    + exfalso. apply not_true_iff_false in B. apply B. apply forallb_forall. intros v' Hv. apply in_map_iff in Hv. destruct Hv as (v & <- & Hv). apply Nat.eqb_eq.
      destruct (F _ Hv) as (F1 & F2). unfold v_size at 1. cbn [v_vals]. rewrite firstn_length_le; [exact F1|]. rewrite skipn_length. lia.
  - unfold jcnt_jacobian. cbn [jc_vars jc_dof jc_kind]. rewrite map_length, map_map. cbn [v_index]. fold n nb.
    change match jc_kind c with Vel => vel_row _ | Accel => accel_row _ _ | Jerk => jerk_row _ _ end with (kind_row (jc_kind c) (fun i => nth i (map (fun x : var R => v_index x) (jc_vars c)) 0%nat) n).
    destruct (forallb ordered _) eqn:B; [reflexivity|]. exfalso. apply not_true_iff_false in B. apply B. apply forallb_forall. intros r Hr. unfold over_blocks in Hr.
    apply in_flat_map in Hr. destruct Hr as (i & Hi & Hr). apply in_map_iff in Hr. destruct Hr as (j & <- & _). apply in_seq in Hi. apply kind_row_ordered; [exact Hm|fold n nb; lia|exact Inc].
Qed.

(** Every value is the difference of order 1, 2 or 3 of consecutive positions, also in the rows at the end
    of the trajectory, and the Jacobian, which does not depend on the point, gives the change of the
    values under every perturbation exactly. *)
Theorem C29_differences : forall k targets vs coeffs (c : jcnt R), jcnt_new k targets vs coeffs = Val c ->
  Forall (fun v => v_size v = length targets) vs -> increasing vs ->
  exists jac, forall x, Forall (fun v => (v_index v + v_size v <= length x)%nat) vs ->
    exists cx values, jcnt_at x c = Val cx /\ jcnt_values cx = Val values /\ jcnt_jacobian cx = Val jac /\
      length values = (blocks k (length vs) * length targets)%nat /\
      (forall i j, (i < blocks k (length vs))%nat -> (j < length targets)%nat ->
        nth (i * length targets + j) values 0 = fdiff (order k) (joint vs x j) (base k (length vs) i)) /\
      forall d, length d = length x -> exists cy, jcnt_at (vplus x d) c = Val cy /\ jcnt_values cy = Val (vplus values (jac_mul jac d)).
Proof.
  intros k targets vs coeffs c E Sz Inc. apply jcnt_new_inv in E as (<- & Ed & <- & Hm & Hd & _).
  eexists. intros x Fx. assert (F : forall y : list R, length y = length x -> Forall (fun v => v_size v = jc_dof c /\ (v_index v + v_size v <= length y)%nat) (jc_vars c)).
  { intros y Ly. rewrite Forall_forall in *. intros v Hv. rewrite Ed, Ly. auto. }
  assert (Hd' : (0 < jc_dof c)%nat) by (rewrite Ed; exact Hd).
  destruct (jcnt_at_spec c x Hd' Hm Inc (F x eq_refl)) as (cx & E1 & E2 & E3). exists cx. eexists. split; [exact E1|]. split; [exact E2|]. split; [exact E3|].
  split; [rewrite over_blocks_length, Ed; reflexivity|]. split.
  - intros i j Hi Hj. rewrite <- Ed in *. rewrite over_blocks_nth by assumption. apply (kind_value_diff (jc_kind c) (fun t j => joint (jc_vars c) x j t)); assumption.
  - intros d Ld. destruct (jcnt_at_spec c (vplus x d) Hd' Hm Inc) as (cy & F1 & F2 & _).
    + apply F. apply vplus_length, Ld.
    + exists cy. split; [exact F1|]. rewrite F2. f_equal. unfold jac_mul. rewrite over_blocks_map, over_blocks_plus. apply over_blocks_ext. intros i j Hi Hj.
      rewrite kind_row_dot, <- kind_value_plus. apply kind_value_ext; [exact Hm|exact Hi|]. intros t Ht. unfold joint.
      rewrite (map_nth_in v_index (jc_vars c) t 0%nat var0) by exact Ht. apply vplus_nth, Ld.
Qed.
Print Assumptions C29_differences.

(** The rows of every block carry the target of their joint as bounds and a positive coefficient: the one
    given for the joint, or the one given for all joints, or the default. *)
Theorem C29_rows : forall k targets vs coeffs (c : jcnt R), jcnt_new k targets vs coeffs = Val c ->
  length (jc_bounds c) = (blocks k (length vs) * length targets)%nat /\ length (jc_coeffs c) = (blocks k (length vs) * length targets)%nat /\
  forall i j, (i < blocks k (length vs))%nat -> (j < length targets)%nat -> let row := (i * length targets + j)%nat in
    (forall v, inside (nth row (jc_bounds c) free) v <-> v = nth j targets 0) /\ 0 < nth row (jc_coeffs c) 0 /\
    (coeffs = [] -> nth row (jc_coeffs c) 0 = match k with Vel => 5 | _ => 1 end) /\
    (forall w, coeffs = [w] -> nth row (jc_coeffs c) 0 = w) /\
    (length coeffs = length targets -> nth row (jc_coeffs c) 0 = nth j coeffs 0).
Proof.
  intros k targets vs coeffs c E. apply jcnt_new_inv in E as (_ & _ & _ & Hm & Hd & -> & f & -> & Cs & Pos).
  rewrite !over_blocks_length. split; [reflexivity|]. split; [reflexivity|]. intros i j Hi Hj row. unfold row. rewrite !over_blocks_nth by assumption. split; [|split; [apply Pos, Hj|]].
  - intros v. unfold inside, at_value. cbn. split; [intros (A & B); specialize (A _ eq_refl); specialize (B _ eq_refl); lra|intros ->; split; intros ? [= <-]; lra].
  - destruct Cs as [(L & Ef)|[(-> & Ef)|(w & -> & Ef)]].
    + split; [intros ->; cbn in L; lia|]. split; [|intros _; apply Ef, Hj]. intros w ->. cbn in L. rewrite Ef by exact Hj. assert (j = 0)%nat by lia. subst. reflexivity.
    + split; [intros _; rewrite Ef; destruct k; cbn; rnum; lra|]. split; [intros w [=]|]. cbn. intros; lia.
    + split; [intros [=]|]. split; [intros w' [= <-]; apply Ef|]. cbn. intros L. rewrite Ef. assert (j = 0)%nat by lia. subst. reflexivity.
Qed.
Print Assumptions C29_rows.

(** The constructor throws exactly when there are too few positions or the coefficients do not fit. *)
Theorem C29_throws : forall k targets vs (coeffs : list R), targets <> [] ->
  (jcnt_new k targets vs coeffs = Throws <->
   (length vs < match k with Vel => 2 | Accel => 4 | Jerk => 6 end)%nat \/ Exists (fun w => w <= 0) coeffs \/
   (length coeffs <> length targets /\ (2 <= length coeffs)%nat)).
Proof.
  intros k targets vs coeffs Ht. unfold jcnt_new. change (match k with Vel => _ | Accel => _ | Jerk => _ end) with (min_vars k).
  destruct (Nat.ltb_spec (length vs) (min_vars k)) as [|Hm]; [tauto|]. destruct (Nat.eqb_spec (length targets) 0) as [L|Hd]; [destruct targets; [congruence|discriminate]|].
  destruct (forallb positive coeffs) eqn:P.
  - cbn [negb]. assert (NE : ~ Exists (fun w => w <= 0) coeffs).
    { intros H. apply Exists_exists in H as (w & Hw & Lw). rewrite forallb_forall in P. specialize (P w Hw). unfold positive in P. apply Rltb_true in P. change (@nzero R R_Num) with 0 in P. lra. }
    destruct (Nat.eqb_spec (length coeffs) (length targets)) as [L|L].
    + split; [discriminate|]. intros [H|[H|H]]; [lia|tauto|lia].
    + destruct coeffs as [|w [|w' ws]]; cbn [length] in *; (split; [try discriminate|try reflexivity]); intros; try (destruct H as [H|[H|H]]; [lia|tauto|lia]). right. right. split; [exact L|lia].
  - cbn [negb]. split; [|reflexivity]. intros _. right. left. apply Exists_exists. apply not_true_iff_false in P. rewrite forallb_forall in P.
    destruct (Exists_dec (fun w => w <= 0) coeffs (fun w => Rle_dec w 0)) as [H|H]; [apply Exists_exists in H; exact H|]. exfalso. apply P. intros w Hw. unfold positive. apply Rltb_true. change (@nzero R R_Num) with 0.
    destruct (Rlt_dec 0 w); [assumption|]. exfalso. apply H, Exists_exists. exists w. split; [exact Hw|lra].
Qed.
Print Assumptions C29_throws.

(** Example: four positions of two joints under an acceleration constraint *)
Definition ex_var (i : nat) : var R := {| v_name := i; v_index := 2 * i; v_vals := [0; 0]; v_bnds := [free; free] |}.
Example C29_ex : exists c cx, jcnt_new Accel [0; 0] (map ex_var [0; 1; 2; 3]%nat) [7] = Val c /\ jcnt_at [0; 0; 1; 2; 4; 8; 9; 8] c = Val cx /\
  jcnt_values cx = Val [2; 4; 2; -6; 2; 4; 2; -6] /\ jc_coeffs c = [7; 7; 7; 7; 7; 7; 7; 7].
Proof.
  do 2 eexists. split; [unfold jcnt_new; cbn; unfold positive; rewrite (proj2 (Rltb_true _ _)) by (change (@nzero R R_Num) with 0; lra); reflexivity|].
  split; [reflexivity|]. split; [|reflexivity]. unfold jcnt_values. cbn -[Rplus Rminus Rmult IZR]. unfold accel_value. cbn -[Rplus Rminus Rmult IZR]. f_equal. rnum. repeat (apply f_equal2; [lra|]). reflexivity.
Qed.

(** The constructor takes positions in any order, but with assertions on getJacobian() aborts when they
    are not in the order of the variable set. *)
Theorem C29_order_refuted : exists vs (c cx : jcnt R) x, jcnt_new Vel [0] vs [] = Val c /\
  Forall (fun v => v_size v = 1%nat /\ (v_index v < length x)%nat) vs /\ NoDup (map v_index vs) /\
  jcnt_at x c = Val cx /\ jcnt_values cx = Val [2] /\ jcnt_jacobian cx = Bad.
Proof.
  exists [{| v_name := 0; v_index := 1; v_vals := [0]; v_bnds := [free] |}; {| v_name := 1; v_index := 0; v_vals := [0]; v_bnds := [free] |}].
  do 2 eexists. exists [3; 1]. split; [reflexivity|]. split; [repeat constructor; cbn; lia|]. split; [repeat constructor; cbn; intuition lia|]. split; [reflexivity|].
  split; [|reflexivity]. unfold jcnt_values. cbn -[Rplus Rminus Rmult IZR]. unfold vel_value. cbn -[Rplus Rminus Rmult IZR]. f_equal. rnum. apply f_equal2; [lra|reflexivity].
Qed.
Print Assumptions C29_order_refuted.

(** ** JointPosConstraint (C30) *)
Lemma split_loop_spec (bs : list (bnd R)) i (coeffs : list R) : (i + length bs <= length coeffs)%nat -> exists rb ri rc, split_loop bs i coeffs = Val (rb, ri, rc) /\
  length rb = length ri /\ rc = map (fun t => nth t coeffs 0) ri /\ Forall (fun t => (i <= t < i + length bs)%nat) ri /\
  (forall t, (i <= t < i + length bs)%nat -> In t ri) /\
  (forall y : nat -> R, Forall2 (fun b t => inside b (y t)) rb ri <-> forall t, (t < length bs)%nat -> inside (nth t bs free) (y (i + t)%nat)).
Proof.
  revert i. induction bs as [|b bs IH]; intros i L; cbn [split_loop length] in *.
  - exists [], [], []. split; [reflexivity|]. split; [reflexivity|]. split; [reflexivity|]. split; [constructor|]. split; [intros; lia|]. intros y. split; [intros _ t Ht; lia|constructor].
  - rewrite (nth_error_nth' coeffs 0) by lia. destruct (IH (S i)) as (rb & ri & rc & -> & L1 & -> & F & G & Eq); [lia|]. cbn [rbind].
    assert (F' : Forall (fun t => (i <= t < i + S (length bs))%nat) ri) by (eapply Forall_impl; [|exact F]; cbn; lia).
    assert (Sp : forall y : nat -> R, (forall t, (t < S (length bs))%nat -> inside (nth t (b :: bs) free) (y (i + t)%nat)) <-> inside b (y i) /\ forall t, (t < length bs)%nat -> inside (nth t bs free) (y (S i + t)%nat)).
    { intros y. split.
      - intros H. split; [specialize (H 0%nat); rewrite Nat.add_0_r in H; apply H; lia|]. intros t Ht. specialize (H (S t)). rewrite Nat.add_succ_r in H. apply H. lia.
      - intros (A & B) [|t] Ht; [rewrite Nat.add_0_r; exact A|]. rewrite Nat.add_succ_r. apply B. lia. }
    destruct (type_of b) eqn:Tb.
    5: { eexists _, _, _. split; [reflexivity|]. split; [cbn; lia|]. split; [reflexivity|]. split; [repeat (apply Forall_cons; [lia|]); exact F'|]. split.
      - intros t Ht. destruct (Nat.eq_dec t i) as [->|]; [left; reflexivity|]. right. right. apply G. lia.
      - intros y. rewrite Sp, <- Eq. split.
        + intros H. inversion_clear H as [|? ? ? ? A1 H']. inversion_clear H' as [|? ? ? ? A2 H'']. split; [|exact H'']. split; [apply A1|apply A2].
        + intros ((A1 & A2) & B). constructor; [split; [exact A1|intros ? [=]]|]. constructor; [split; [intros ? [=]|exact A2]|exact B]. }
    all: eexists _, _, _; split; [reflexivity|]; split; [cbn; lia|]; split; [reflexivity|]; split; [apply Forall_cons; [lia|exact F']|]; split;
      [intros t Ht; destruct (Nat.eq_dec t i) as [->|]; [left; reflexivity|]; right; apply G; lia
      |intros y; rewrite Sp, <- Eq; split; [intros H; inversion_clear H; auto|intros (A & B); constructor; assumption]].
Qed.

(** A JointPosConstraint with one coefficient per joint (or with any documented number when ranges are kept
    whole) is defined at every point, has a positive coefficient per row, an exact Jacobian, and its rows
    admit exactly the positions within the given bounds, whether ranges are split or not. *)
Theorem C30_bounds_partial : forall bs (v : var R) coeffs split, bs <> [] -> v_size v = length bs -> Forall (fun w => 0 < w) coeffs ->
  length coeffs = length bs \/ (split = false /\ (length coeffs <= 1)%nat) ->
  exists c, jpos_bounds bs v coeffs split = Val c /\ length (jp_coeffs c) = length (jp_index c) /\ length (jp_bounds c) = length (jp_index c) /\ Forall (fun w => 0 < w) (jp_coeffs c) /\
    (length coeffs = length bs -> forall r, (r < length (jp_index c))%nat -> nth r (jp_coeffs c) 0 = nth (nth r (jp_index c) 0%nat) coeffs 0) /\
    forall x, (v_index v + v_size v <= length x)%nat -> exists cx values, jpos_at x c = Val cx /\ jpos_values cx = Val values /\
      (Forall2 inside (jp_bounds c) values <-> forall j, (j < length bs)%nat -> inside (nth j bs free) (nth (v_index v + j) x 0)) /\
      forall d, length d = length x -> exists cy, jpos_at (vplus x d) c = Val cy /\ jpos_values cy = Val (vplus values (jac_mul (jpos_jacobian cx) d)).
Proof.
  intros bs v coeffs split Hb Sz Pos Hc. unfold jpos_bounds. destruct (Nat.eqb_spec (length bs) 0) as [L0|L0]; [destruct bs; [congruence|discriminate]|].
  assert (P : forallb positive coeffs = true). { apply forallb_forall. rewrite Forall_forall in Pos. intros w Hw. unfold positive. apply Rltb_true. change (@nzero R R_Num) with 0. auto. } rewrite P. cbn [negb].
  assert (K : forall (c : jpos R), jp_var c = v -> length (jp_coeffs c) = length (jp_index c) -> Forall (fun t => (t < length bs)%nat) (jp_index c) ->
    (forall y : nat -> R, Forall2 (fun b t => inside b (y t)) (jp_bounds c) (jp_index c) <-> forall j, (j < length bs)%nat -> inside (nth j bs free) (y j)) ->
    forall x, (v_index v + v_size v <= length x)%nat -> exists cx values, jpos_at x c = Val cx /\ jpos_values cx = Val values /\
      (Forall2 inside (jp_bounds c) values <-> forall j, (j < length bs)%nat -> inside (nth j bs free) (nth (v_index v + j) x 0)) /\
      forall d, length d = length x -> exists cy, jpos_at (vplus x d) c = Val cy /\ jpos_values cy = Val (vplus values (jac_mul (jpos_jacobian cx) d))).
  { intros c Ev Lc Fi Hbd x Hx.
    assert (At : forall y : list R, length y = length x -> exists cy, jpos_at y c = Val cy /\ jpos_values cy = Val (map (fun t => nth (v_index v + t) y 0) (jp_index c)) /\ jpos_jacobian cy = map (fun i => [((v_index v + i)%nat, 1)]) (jp_index c)).
    { intros y Ly. unfold jpos_at. rewrite Ev. unfold var_set. rewrite !(proj2 (Nat.ltb_lt _ _)) by lia. cbn [andb rbind]. eexists. split; [reflexivity|].
      set (v' := {| v_name := _ |}). assert (Sv : v_size v' = length bs) by (unfold v', v_size; cbn; rewrite firstn_length_le by (rewrite skipn_length; unfold v_size in Hx; lia); exact Sz). split.
      - unfold jpos_values. cbn [jp_var jp_index jp_coeffs]. rewrite Sv, Lc, Nat.eqb_refl.
        replace (forallb _ _) with true; [|symmetry; apply forallb_forall; intros t Ht; rewrite Forall_forall in Fi; apply Nat.ltb_lt, Fi, Ht]. cbn [andb]. f_equal. apply map_ext_in. intros t Ht.
        rewrite Forall_forall in Fi. specialize (Fi t Ht). cbn [v' v_vals]. apply nth_segment; lia.
      - reflexivity. }
    destruct (At x eq_refl) as (cx & E1 & E2 & E3). exists cx. eexists. split; [exact E1|]. split; [exact E2|]. split.
    - rewrite <- (Hbd (fun j => nth (v_index v + j) x 0)). clear. generalize (jp_bounds c), (jp_index c). intros l m. split.
      + revert m. induction l as [|b l IH]; intros [|t m] H; inversion_clear H; constructor; auto.
      + induction 1; cbn; constructor; auto.
    - intros d Ld. destruct (At (vplus x d)) as (cy & F1 & F2 & _); [apply vplus_length, Ld|]. exists cy. split; [exact F1|]. rewrite F2, E3. f_equal. unfold jac_mul. rewrite map_map.
      unfold vplus at 2. clear - Ld. induction (jp_index c) as [|t m IH]; [reflexivity|]. cbn [map combine fst snd]. rewrite <- IH. f_equal. rewrite vplus_nth by exact Ld. f_equal. rewrite srow_dot_R, rsum_cons, rsum_nil. cbn [fst snd]. lra. }
  assert (W : split = false -> forall cs, length cs = length bs -> Forall (fun w => 0 < w) cs -> (length coeffs = length bs -> cs = coeffs) ->
    exists c, jpos_finish bs v coeffs split cs = Val c /\ length (jp_coeffs c) = length (jp_index c) /\ length (jp_bounds c) = length (jp_index c) /\ Forall (fun w => 0 < w) (jp_coeffs c) /\
    (length coeffs = length bs -> forall r, (r < length (jp_index c))%nat -> nth r (jp_coeffs c) 0 = nth (nth r (jp_index c) 0%nat) coeffs 0) /\
    forall x, (v_index v + v_size v <= length x)%nat -> exists cx values, jpos_at x c = Val cx /\ jpos_values cx = Val values /\
      (Forall2 inside (jp_bounds c) values <-> forall j, (j < length bs)%nat -> inside (nth j bs free) (nth (v_index v + j) x 0)) /\
      forall d, length d = length x -> exists cy, jpos_at (vplus x d) c = Val cy /\ jpos_values cy = Val (vplus values (jac_mul (jpos_jacobian cx) d))).
  { intros -> cs Lc Pc Ec. eexists. split; [reflexivity|]. cbn [jp_coeffs jp_index jp_bounds]. rewrite seq_length. split; [exact Lc|]. split; [reflexivity|]. split; [exact Pc|]. split.
    - intros L r Hr. rewrite Ec by exact L. rewrite seq_nth by exact Hr. reflexivity.
    - apply K; cbn [jp_var jp_coeffs jp_index jp_bounds]; [reflexivity|rewrite seq_length; exact Lc|apply Forall_forall; intros t Ht; apply in_seq in Ht; lia|].
      intros y. rewrite (Forall2_nth_iff _ _ _ free 0%nat), seq_length. split.
      + intros (_ & H) j Hj. specialize (H j Hj). rewrite seq_nth in H by exact Hj. exact H.
      + intros H. split; [reflexivity|]. intros j Hj. rewrite seq_nth by exact Hj. apply H, Hj. }
  destruct split.
  - destruct Hc as [Lc|[[=] _]].
    assert (D : exists c, jpos_finish bs v coeffs true coeffs = Val c /\ length (jp_coeffs c) = length (jp_index c) /\ length (jp_bounds c) = length (jp_index c) /\ Forall (fun w => 0 < w) (jp_coeffs c) /\
    (length coeffs = length bs -> forall r, (r < length (jp_index c))%nat -> nth r (jp_coeffs c) 0 = nth (nth r (jp_index c) 0%nat) coeffs 0) /\
    forall x, (v_index v + v_size v <= length x)%nat -> exists cx values, jpos_at x c = Val cx /\ jpos_values cx = Val values /\
      (Forall2 inside (jp_bounds c) values <-> forall j, (j < length bs)%nat -> inside (nth j bs free) (nth (v_index v + j) x 0)) /\
      forall d, length d = length x -> exists cy, jpos_at (vplus x d) c = Val cy /\ jpos_values cy = Val (vplus values (jac_mul (jpos_jacobian cx) d))).
    { unfold jpos_finish. destruct (split_loop_spec bs 0 coeffs) as (rb & ri & rc & -> & L1 & -> & F & _ & Eq); [cbn; lia|]. cbn [rbind]. eexists. split; [reflexivity|]. cbn [jp_coeffs jp_index jp_bounds fst snd].
      rewrite map_length. split; [reflexivity|]. split; [exact L1|]. split; [|split].
      - apply Forall_forall. intros w Hw. apply in_map_iff in Hw as (t & <- & Ht). rewrite Forall_forall in *. specialize (F t Ht). apply Pos, nth_In. lia.
      - intros _ r Hr. apply (map_nth_in (fun t => nth t coeffs 0)). exact Hr.
      - apply K; cbn [jp_var jp_coeffs jp_index jp_bounds fst snd]; [reflexivity|apply map_length|eapply Forall_impl; [|exact F]; cbn; lia|]. intros y. apply (Eq y). }
    assert (Ed : match coeffs with [] => jpos_finish bs v coeffs true (repeat none_ (length bs)) | [c] => jpos_finish bs v coeffs true (repeat c (length bs)) | _ :: _ :: _ => if (length coeffs =? length bs)%nat then jpos_finish bs v coeffs true coeffs else Throws end = jpos_finish bs v coeffs true coeffs).
    { destruct coeffs as [|w [|w' ws]]; [reflexivity|reflexivity|]. rewrite Lc, Nat.eqb_refl. reflexivity. }
    rewrite Ed. exact D.
  - destruct coeffs as [|w [|w' ws]].
    + apply W; [reflexivity|apply repeat_length| |cbn; lia]. apply Forall_forall. intros w Hw. apply repeat_spec in Hw as ->. change (@none_ R R_Num) with 1. lra.
    + apply W; [reflexivity|apply repeat_length| |]. { apply Forall_forall. intros w' Hw. apply repeat_spec in Hw as ->. inversion Pos. assumption. } cbn. intros <-. reflexivity.
    + destruct Hc as [Lc|(_ & Lc)]; [|cbn in Lc; lia]. replace (length (w :: w' :: ws) =? length bs)%nat with true by (symmetry; apply Nat.eqb_eq; exact Lc). apply W; auto.
Qed.
Print Assumptions C30_bounds_partial.
(** Missing above: splitting ranges with no or with one coefficient reads outside the given vector. *)
Theorem C30_split_refuted :
  (exists bs (v : var R), v_size v = length bs /\ jpos_bounds bs v [] true = Bad) /\
  (exists bs (v : var R), v_size v = length bs /\ jpos_bounds bs v [1] true = Bad /\ exists c, jpos_bounds bs v [1] false = Val c).
Proof.
  split.
  - exists [free], {| v_name := 0; v_index := 0; v_vals := [0]; v_bnds := [free] |}. split; reflexivity.
  - exists [free; free], {| v_name := 0; v_index := 0; v_vals := [0; 0]; v_bnds := [free; free] |}. split; [reflexivity|].
    assert (P : forallb positive [1] = true) by (cbn; unfold positive; rewrite (proj2 (Rltb_true _ _)) by (change (@nzero R R_Num) with 0; lra); reflexivity).
    unfold jpos_bounds. cbn [length Nat.eqb]. rewrite P. cbn. split; [reflexivity|]. eexists. reflexivity.
Qed.
Print Assumptions C30_split_refuted.
(** The constructor from targets rejects an empty coefficient vector, unlike the one from bounds; with one
    coefficient or one per joint the rows fix the joints at their targets. *)
Theorem C30_targets : forall targets (v : var R) coeffs, targets <> [] ->
  (forall c, jpos_target targets v coeffs = Val c -> Forall (fun w => 0 < w) (jp_coeffs c) /\ length (jp_coeffs c) = length targets /\ jp_index c = seq 0 (length targets) /\
     forall y, length y = length targets -> (Forall2 inside (jp_bounds c) y <-> y = targets)) /\
  ((exists c, jpos_target targets v coeffs = Val c) <-> Forall (fun w => 0 < w) coeffs /\ (length coeffs = 1%nat \/ length coeffs = length targets)).
Proof.
  intros targets v coeffs Ht. unfold jpos_target. destruct (Nat.eqb_spec (length targets) 0) as [L0|L0]; [destruct targets; [congruence|discriminate]|].
  assert (P : forallb positive coeffs = true <-> Forall (fun w => 0 < w) coeffs).
  { rewrite forallb_forall, Forall_forall. unfold positive. split; intros H w Hw; specialize (H w Hw); apply Rltb_true in H || apply Rltb_true; exact H. }
  destruct (forallb positive coeffs); cbn [negb].
  2: { split; [discriminate|]. split; [intros (c & [=])|]. intros (H & _). apply P in H. discriminate. }
  assert (Pos : Forall (fun w => 0 < w) coeffs) by (apply P; reflexivity). clear P. set (cs := match coeffs with [c] => _ | _ => _ end).
  assert (Pc : Forall (fun w => 0 < w) cs).
  { unfold cs. destruct coeffs as [|w [|w' ws]]; [exact Pos| |exact Pos]. apply Forall_forall. intros w' Hw. apply repeat_spec in Hw as ->. inversion Pos. assumption. }
  assert (Lc : length cs = length targets <-> length coeffs = 1%nat \/ length coeffs = length targets).
  { unfold cs. destruct coeffs as [|w [|w' ws]]; [cbn; intuition lia|rewrite repeat_length; cbn; tauto|cbn; intuition lia]. }
  destruct (Nat.eqb_spec (length cs) (length targets)) as [L|L]; cbn [negb].
  - split; [|split; [intros _; split; [exact Pos|apply Lc, L]|intros _; eexists; reflexivity]]. intros c [= <-]. cbn [jp_coeffs jp_bounds jp_index]. split; [exact Pc|]. split; [exact L|]. split; [reflexivity|].
    intros y. clear. revert y. induction targets as [|t ts IH]; intros [|a y] Ly; try discriminate; [split; [reflexivity|constructor]|]. cbn in Ly. injection Ly as Ly. specialize (IH y Ly). cbn [map]. split.
    + intros H. inversion_clear H as [|? ? ? ? (A & B) H']. apply IH in H' as ->. specialize (A _ eq_refl). specialize (B _ eq_refl). cbn in *. f_equal. lra.
    + intros [= -> ->]. constructor; [split; intros ? [= <-]; lra|]. apply IH. reflexivity.
  - split; [discriminate|]. split; [intros (c & [=])|]. intros (_ & H). apply Lc in H. contradiction.
Qed.
Print Assumptions C30_targets.
Example C30_ex : let b := {| b_lo := Some 0; b_hi := Some 1 |} in let v := {| v_name := 0; v_index := 1; v_vals := [0; 0]; v_bnds := [free; free] |} in
  exists c cx, jpos_bounds [b; at_least 3] v [2; 5] true = Val c /\ jp_index c = [0; 0; 1]%nat /\ jp_coeffs c = [2; 2; 5] /\
    jp_bounds c = [at_least 0; {| b_lo := None; b_hi := Some 1 |}; at_least 3] /\ jpos_at [9; 7; 8] c = Val cx /\ jpos_values cx = Val [7; 7; 8].
Proof.
  intros b v. assert (P : forallb positive [2; 5] = true) by (cbn; unfold positive; rewrite !(proj2 (Rltb_true _ _)) by (change (@nzero R R_Num) with 0; lra); reflexivity).
  assert (Tb : type_of b = RangeBound).
  { unfold type_of, b. cbn [b_lo b_hi]. change (@ndec R R_Num 1 (-8)) with (1 / 10 ^ 8). rnum. match goal with |- context [Rltb ?a ?c] => destruct (Rltb_spec a c) as [H|H] end; [|reflexivity]. unfold Rabs in H. destruct (Rcase_abs _); lra. }
  do 2 eexists. unfold jpos_bounds. cbn [length Nat.eqb]. rewrite P. cbn [negb]. unfold jpos_finish. cbn [split_loop nth_error rbind]. rewrite Tb. change (type_of (at_least 3)) with LowerBound. cbn. repeat (split; [reflexivity|]). reflexivity.
Qed.

(** Moving to another point changes neither bounds nor coefficients, for all four constraints. *)
Theorem C30_same_rows : forall (x : list R),
  (forall c cx, jpos_at x c = Val cx -> jp_bounds cx = jp_bounds c /\ jp_coeffs cx = jp_coeffs c /\ jp_index cx = jp_index c) /\
  (forall c cx, jcnt_at x c = Val cx -> jc_bounds cx = jc_bounds c /\ jc_coeffs cx = jc_coeffs c /\ jc_dof cx = jc_dof c /\ jc_kind cx = jc_kind c).
Proof.
  intros x. split; intros c cx E.
  - unfold jpos_at in E. destruct (var_set x (jp_var c)); try discriminate. injection E as <-. repeat split; reflexivity.
  - unfold jcnt_at in E. destruct (vars_set x (jc_vars c)); try discriminate. injection E as <-. repeat split; reflexivity.
Qed.
Print Assumptions C30_same_rows.
