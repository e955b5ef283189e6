(** * Theorems about affine and quadratic expressions (C17-C19) *)
From Coq Require Import List ZArith Bool Arith Reals Lra Lia.
From Verif Require Import Num NumFacts RSums IfoptModel IfoptProofs ExprsModel.
Import ListNotations.
Local Open Scope R_scope.

Lemma jac_mul_nth (j : list (srow R)) x i : (i < length j)%nat -> nth i (jac_mul j x) 0 = srow_dot (nth i j []) x.
Proof. intros H. apply (nth_map_d (fun r => srow_dot r x)). exact H. Qed.
Lemma jac_mul_length (j : list (srow R)) x : length (jac_mul j x) = length j.
Proof. apply map_length. Qed.
Lemma vzip_length f (a b : list R) : length a = length b -> length (vzip f a b) = length a.
Proof. intros H. unfold vzip. rewrite map_length, combine_length. lia. Qed.
Lemma vzip_nth f (a b : list R) i : length a = length b -> (i < length a)%nat -> nth i (vzip f a b) 0 = f (nth i a 0) (nth i b 0).
Proof. intros H Hi. unfold vzip. rewrite (map_combine_nth _ a b i 0 0 0) by auto. reflexivity. Qed.

Ltac vl := unfold vzip, jac_mul, scale_rows, vadd, dense_of in *;
  repeat (rewrite map_length in * || rewrite combine_length in * || rewrite seq_length in * ); lia.

(** ** C19 *)
Theorem C19_exact_at_x (f : list R) (j : list (srow R)) (x : list R) : length j = length f ->
  exists a, ae_create f j x = Val a /\ ae_values a x = Val f.
Proof.
  intros H. unfold ae_create. rewrite (proj2 (Nat.eqb_eq _ _) H). eexists. split; [reflexivity|]. unfold ae_values. cbn [ae_lin ae_const].
  rewrite vzip_length, (proj2 (Nat.eqb_eq _ _)) by vl. f_equal. apply nth_ext with 0 0.
  - vl.
  - intros i Hi. assert (Hi' : (i < length f)%nat) by vl.
    rewrite !vzip_nth by vl. rnum. ring.
Qed.
Print Assumptions C19_exact_at_x.

(** If the function is affine with the given Jacobian, the expression is the function. *)
Theorem C19_exact_everywhere (g : list R -> list R) (j : list (srow R)) (c x : list R) : length c = length j ->
  (forall y, length (g y) = length j /\ forall i, (i < length j)%nat -> nth i (g y) 0 = srow_dot (nth i j []) y + nth i c 0) ->
  exists a, ae_create (g x) j x = Val a /\ forall y, ae_values a y = Val (g y).
Proof.
  intros Hc Hg. destruct (Hg x) as [Lx Nx]. unfold ae_create. rewrite (proj2 (Nat.eqb_eq _ _)) by lia. eexists. split; [reflexivity|]. intros y.
  destruct (Hg y) as [Ly Ny]. unfold ae_values. cbn [ae_lin ae_const].
  rewrite vzip_length, (proj2 (Nat.eqb_eq _ _)) by vl. f_equal. apply nth_ext with 0 0.
  - vl.
  - intros i Hi. assert (Hi' : (i < length j)%nat) by vl.
    rewrite !vzip_nth, !jac_mul_nth, Ny, Nx by vl. rnum. ring.
Qed.
Print Assumptions C19_exact_everywhere.
Example C19_ex : exists a, ae_create [5] [[(0%nat, 2); (1%nat, 1)]] [1; 3] = Val a /\ nth 0 (ae_const a) 0 = 0.
Proof. eexists. split; [reflexivity|]. cbn. rnum. lra. Qed.

(** ** C17 *)
Lemma scale_rows_nth ks (j : list (srow R)) i : length ks = length j -> (i < length j)%nat ->
  nth i (scale_rows ks j) [] = map (fun cv => (fst cv, snd cv * nth i ks 0)) (nth i j []).
Proof. intros H Hi. unfold scale_rows. apply (map_combine_nth (fun p : R * srow R => map (fun cv : nat * R => (fst cv, snd cv * fst p)) (snd p)) ks j i [] 0 []); auto; lia. Qed.
Lemma scaled_dot (r : srow R) k x : srow_dot (map (fun cv => (fst cv, snd cv * k)) r) x = k * srow_dot r x.
Proof. rewrite !srow_dot_R, rsum_map, <- rsum_scal. apply rsum_ext. intros p _. cbn [fst snd]. ring. Qed.
Lemma coeff_assoc (r : srow R) c : coeff r c = assoc_sum c r.
Proof. unfold coeff. rnum. rewrite col_fold. ring. Qed.
Lemma dot_coeff n (r : srow R) x : Forall (fun p => (fst p < n)%nat) r -> length x = n -> srow_dot r x = bigsum n (fun i => coeff r i * nth i x 0).
Proof.
  intros H L. rewrite srow_dot_R, <- (bigsum_assoc n r (fun i => nth i x 0)) by exact H. apply bigsum_ext. intros i _. rewrite coeff_assoc. reflexivity.
Qed.

(** the quadratic form of a dense matrix *)
Definition qform (n : nat) (h : list (list R)) (x : list R) : R :=
  bigsum n (fun i => bigsum n (fun k => nth i x 0 * nth k (nth i h []) 0 * nth k x 0)).

Lemma rsum_sum_nth (vs : list R) : rsum (fun v => v) vs = bigsum (length vs) (fun i => nth i vs 0).
Proof.
  unfold bigsum. assert (G : forall s (vs : list R), rsum (fun v => v) vs = rsum (fun i => nth (i - s) vs 0) (seq s (length vs))).
  { clear. intros s vs. revert s. induction vs as [|v vs IH]; intros s; [reflexivity|]. cbn [length seq]. rewrite !rsum_cons, Nat.sub_diag. cbn [nth]. f_equal.
    rewrite (IH (S s)). apply rsum_ext. intros i Hi. apply in_seq in Hi. replace (i - s)%nat with (S (i - S s)) by lia. reflexivity. }
  rewrite (G 0%nat). apply rsum_ext. intros i _. rewrite Nat.sub_0_r. reflexivity.
Qed.
Lemma bigsum_rsum {A} n (f : nat -> A -> R) l : bigsum n (fun i => rsum (f i) l) = rsum (fun a => bigsum n (fun i => f i a)) l.
Proof.
  induction l as [|a l IH].
  - apply (bigsum_zero n).
  - rewrite rsum_cons, <- IH. rewrite <- bigsum_plus. apply bigsum_ext. intros i _. apply rsum_cons.
Qed.

Lemma square_fields n (a : affs R) w q : ae_square sqrt n a w = Val q ->
  length w = length (ae_const a) /\ length (ae_lin a) = length (ae_const a).
Proof.
  unfold ae_square. destruct (Nat.eqb_spec (length w) (length (ae_const a))); [|discriminate].
  destruct (Nat.eqb_spec (length (ae_lin a)) (length (ae_const a))); [auto|discriminate].
Qed.

Lemma gram_form n (bw : list (srow R)) x : length x = n -> Forall (Forall (fun p => (fst p < n)%nat)) bw ->
  qform n (map (fun i => map (fun k => vsum (map (fun r => (coeff r i * coeff r k)%num) bw)) (seq 0 n)) (seq 0 n)) x =
  rsum (fun r => srow_dot r x ^ 2) bw.
Proof.
  intros L F. unfold qform.
  rewrite (bigsum_ext n _ (fun i => rsum (fun r => coeff r i * nth i x 0 * srow_dot r x) bw)).
  - rewrite bigsum_rsum. apply rsum_ext. intros r Hr. rewrite (Forall_forall) in F. specialize (F r Hr).
    rewrite (bigsum_ext n _ (fun i => srow_dot r x * (coeff r i * nth i x 0))) by (intros; ring). rewrite bigsum_scal, <- dot_coeff by assumption. ring.
  - intros i Hi. rewrite (bigsum_ext n _ (fun k => nth i x 0 * (rsum (fun r => coeff r i * coeff r k * nth k x 0) bw))).
    + rewrite bigsum_scal, bigsum_rsum, <- rsum_scal. apply rsum_ext. intros r Hr. rewrite Forall_forall in F. specialize (F r Hr).
      rewrite (bigsum_ext n _ (fun k => coeff r i * (coeff r k * nth k x 0))) by (intros; ring). rewrite bigsum_scal, <- dot_coeff by assumption. ring.
    + intros k Hk. rewrite nth_map_seq by exact Hi. rewrite nth_map_seq by exact Hk. rewrite vsum_R. rnum.
      rewrite Rmult_assoc. f_equal. change (rsum (fun r => coeff r i * coeff r k) bw * nth k x 0 = rsum (fun r => coeff r i * coeff r k * nth k x 0) bw).
      rewrite <- rsum_scal_r. reflexivity.
Qed.

(** The squared expressions evaluate to w (A x + b)^2 everywhere, and the objective assembled from them
    (constants, gradient and matrix) is the sum of these values. *)
Theorem C17_square (n : nat) (a : affs R) (w : list R) : length w = length (ae_const a) -> length (ae_lin a) = length (ae_const a) ->
  Forall (fun v => 0 <= v) w -> Forall (Forall (fun p => (fst p < n)%nat)) (ae_lin a) ->
  exists q, ae_square sqrt n a w = Val q /\ forall x, length x = n ->
    exists vs, qe_values q x = Val vs /\ length vs = length w /\
      (forall i, (i < length w)%nat -> nth i vs 0 = nth i w 0 * (srow_dot (nth i (ae_lin a) []) x + nth i (ae_const a) 0) ^ 2) /\
      rsum (fun v => v) (qe_const q) + vdot (qe_obj_lin q) x + qform n (qe_obj_quad q) x = rsum (fun v => v) vs.
Proof.
  intros Hw Hl Hp Hc. unfold ae_square. rewrite !(proj2 (Nat.eqb_eq _ _)) by lia. cbn [andb]. eexists. split; [reflexivity|]. intros x Lx.
  set (m := length (ae_const a)) in *.
  set (lin := scale_rows (map (fun v => (nofZ 2 * v)%num) (vzip nmul (ae_const a) w)) (ae_lin a)).
  set (bw := scale_rows (map sqrt w) (ae_lin a)).
  assert (Llin : length lin = m) by (unfold lin, scale_rows; rewrite map_length, combine_length, map_length, vzip_length; lia).
  assert (Lbw : length bw = m) by (unfold bw, scale_rows; rewrite map_length, combine_length, map_length; lia).
  assert (Lcc : length (vzip nmul (vzip nmul (ae_const a) (ae_const a)) w) = m) by (rewrite !vzip_length; rewrite ?vzip_length; lia).
  assert (Nl : forall i, (i < m)%nat -> srow_dot (nth i lin []) x = 2 * (nth i (ae_const a) 0 * nth i w 0) * srow_dot (nth i (ae_lin a) []) x).
  { intros i Hi. unfold lin. rewrite scale_rows_nth by vl. rewrite scaled_dot.
    rewrite (nth_map_d _ _ i 0 0) by (rewrite vzip_length; lia). rewrite vzip_nth by lia. rnum. reflexivity. }
  assert (Nb : forall i, (i < m)%nat -> srow_dot (nth i bw []) x ^ 2 = nth i w 0 * srow_dot (nth i (ae_lin a) []) x ^ 2).
  { intros i Hi. unfold bw. rewrite scale_rows_nth by vl. rewrite scaled_dot.
    rewrite (nth_map_d sqrt _ i 0 0) by lia. rewrite Rpow_mult_distr, pow2_sqrt; [reflexivity|].
    eapply (Forall_forall (fun v => 0 <= v)); [exact Hp|apply nth_In; lia]. }
  assert (Nc : forall i, (i < m)%nat -> nth i (vzip nmul (vzip nmul (ae_const a) (ae_const a)) w) 0 = nth i (ae_const a) 0 ^ 2 * nth i w 0).
  { intros i Hi. rewrite !vzip_nth by vl. rnum. ring. }
  assert (Qv : forall r : srow R, quad_value match r with [] => [] | _ :: _ => [r] end x = srow_dot r x ^ 2).
  { intros [|p r]; [unfold srow_dot; cbn; rnum; ring|]. cbn [quad_value]. rnum. ring. }
  unfold qe_values. cbn [qe_lin qe_const qe_quad qe_obj_lin qe_obj_quad]. fold lin bw. rewrite Llin, Lcc, Nat.eqb_refl.
  set (out := vzip nadd _ _). assert (Lo : length out = m) by (unfold out; rewrite vzip_length; rewrite ?Lcc, ?jac_mul_length; lia).
  assert (K : exists vs, match map (fun r : srow R => match r with [] => [] | _ :: _ => [r] end) bw with
    | [] => Val out
    | _ :: _ => if (length out =? length (map (fun r : srow R => match r with [] => [] | _ :: _ => [r] end) bw))%nat
        then Val (map (fun p => (fst p + quad_value (snd p) x)%num) (combine out (map (fun r : srow R => match r with [] => [] | _ :: _ => [r] end) bw)))
        else Bad end = Val vs /\ vs = map (fun p => fst p + srow_dot (snd p) x ^ 2) (combine out bw)).
  { rewrite map_length, Lo, Lbw, Nat.eqb_refl. rewrite combine_map_r, map_map.
    eexists. split; [|reflexivity]. destruct bw as [|r bw'] eqn:Eb; cbn [map].
    - f_equal. cbn in Lbw. destruct out; [reflexivity|cbn in Lo; lia].
    - f_equal. apply map_ext. intros [o q]. cbn [fst snd]. rewrite Qv. reflexivity. }
  destruct K as (vs & EK & Ev). exists vs. split; [exact EK|].
  assert (Lv : length vs = m) by (rewrite Ev, map_length, combine_length; lia).
  assert (Nv : forall i, (i < m)%nat -> nth i vs 0 = nth i (vzip nmul (vzip nmul (ae_const a) (ae_const a)) w) 0 + srow_dot (nth i lin []) x + srow_dot (nth i bw []) x ^ 2).
  { intros i Hi. rewrite Ev, (map_combine_nth _ out bw i 0 0 []) by lia. cbn [fst snd]. unfold out. rewrite vzip_nth, jac_mul_nth by vl. reflexivity. }
  split; [lia|]. split.
  - intros i Hi. rewrite Nv, Nl, Nb, Nc by lia. ring.
  - rewrite col_sums_dot by (auto; apply scale_rows_in, Hc). fold lin. rewrite gram_form by (auto; apply scale_rows_in, Hc).
    rewrite (rsum_sum_nth vs), (rsum_sum_nth (vzip _ _ _)), Lv, Lcc.
    assert (J : forall (f : srow R -> R) l, length l = m -> rsum f l = bigsum m (fun i => f (nth i l []))).
    { intros f l L. rewrite <- L. transitivity (rsum (fun v => v) (map f l)); [unfold rsum; rewrite map_id; reflexivity|].
      rewrite rsum_sum_nth, map_length. apply bigsum_ext. intros i Hi. apply nth_map_d. exact Hi. }
    rewrite (J (fun r => srow_dot r x) lin Llin), (J (fun r => srow_dot r x ^ 2) bw Lbw), <- !bigsum_plus. apply bigsum_ext.
    intros i Hi. rewrite Nv by exact Hi. ring.
Qed.
Print Assumptions C17_square.
Example C17_ex : exists q, ae_square sqrt 2 {| ae_const := [1]; ae_lin := [[(0%nat, 2); (1%nat, 3)]] |} [4] = Val q /\ nth 0 (qe_const q) 0 = 4 /\ nth 0 (nth 1 (qe_obj_quad q) []) 0 = 24.
Proof.
  eexists. split; [reflexivity|]. cbn. rnum. replace (sqrt 4) with 2 by (symmetry; replace 4 with (2 * 2) by ring; apply sqrt_square; lra).
  split; lra.
Qed.

(** ** C18 *)
(** Without a Hessian entry the linear part is dropped: the expression neither has the given value at
    x nor the given gradient. *)
Theorem C18_empty_hessian_refuted : exists (f : list R) (j : list (srow R)) (hs : list (list (srow R))) (x : list R) (old q : quads R),
  f = [1] /\ j = [[(0%nat, 1); (1%nat, 1)]] /\ hs = [[[]; []]] /\ qe_create 2 old f j hs x = Val q /\
  (forall y, exists v, qe_values q y = Val [v] /\ v = 0) /\ (exists v, qe_values q x = Val [v] /\ v <> 1).
Proof.
  exists [1], [[(0%nat, 1); (1%nat, 1)]], [[[]; []]], [1; 0], {| qe_const := []; qe_lin := []; qe_quad := []; qe_obj_lin := []; qe_obj_quad := [] |}.
  eexists. do 3 (split; [reflexivity|]). split; [reflexivity|].
  assert (A : forall y, exists v, qe_values (T := R) {| qe_const := [(nadd (nsub 1 (srow_dot [(0%nat, 1); (1%nat, 1)] [1; 0])) 0)]; qe_lin := [[]]; qe_quad := [[]]; qe_obj_lin := []; qe_obj_quad := [] |} y = Val [v] /\ v = 0).
  { intros y. eexists. split; [reflexivity|]. cbn. rnum. ring. }
  assert (B : forall y, exists v, qe_values (T := R) {| qe_const := [(nsub 1 (srow_dot [(0%nat, 1); (1%nat, 1)] [1; 0]))]; qe_lin := [[]]; qe_quad := [[]]; qe_obj_lin := []; qe_obj_quad := [] |} y = Val [v] /\ v = 0).
  { intros y. eexists. split; [reflexivity|]. cbn. rnum. ring. }
  split; [exact B|]. destruct (B [1; 0]) as (v & E & ->). exists 0. split; [exact E|lra].
Qed.
Print Assumptions C18_empty_hessian_refuted.

(** With a single variable, the 1x1 Hessian is taken for the row-vector encoding of a squared affine
    expression, and the value at x is wrong. *)
Theorem C18_one_variable_refuted : exists (f : list R) (j : list (srow R)) (hs : list (list (srow R))) (x : list R) (old q : quads R),
  f = [0] /\ x = [1] /\ hs = [[[(0%nat, 4)]]] /\ qe_create 1 old f j hs x = Val q /\ (exists v, qe_values q x = Val [v] /\ v = 2).
Proof.
  exists [0], [[(0%nat, 0)]], [[[(0%nat, 4)]]], [1], {| qe_const := []; qe_lin := []; qe_quad := []; qe_obj_lin := []; qe_obj_quad := [] |}.
  eexists. do 3 (split; [reflexivity|]). split; [reflexivity|]. eexists. split; [reflexivity|]. cbn. rnum. change (10 ^ Pos.to_nat 1) with (10 * 1).
  lra.
Qed.
Print Assumptions C18_one_variable_refuted.

(** For at least two variables and Hessians with at least one entry, the value at x is exact, and along
    every displacement the expression is f + J d + 1/2 d^T H d when H is symmetric. *)
Definition hform (h : list (srow R)) (x y : list R) : R := vdot x (jac_mul h y).
Definition hsym (n : nat) (h : list (srow R)) : Prop := forall i k, (i < n)%nat -> (k < n)%nat -> coeff (nth i h []) k = coeff (nth k h []) i.

Lemma vdot_bigsum n (x y : list R) : length x = n -> length y = n -> vdot x y = bigsum n (fun i => nth i x 0 * nth i y 0).
Proof.
  intros Lx Ly. unfold vdot. rewrite vsum_R. rnum. transitivity (rsum (fun v => v) (map (fun p => fst p * snd p) (combine x y))); [unfold rsum; rewrite map_id; reflexivity|].
  rewrite rsum_sum_nth, map_length, combine_length, Lx, Ly, Nat.min_id. apply bigsum_ext. intros i Hi. rewrite (map_combine_nth _ x y i 0 0 0) by lia. reflexivity.
Qed.
Lemma hform_bigsum n (h : list (srow R)) x y : length h = n -> length x = n -> length y = n -> Forall (Forall (fun p => (fst p < n)%nat)) h ->
  hform h x y = bigsum n (fun i => bigsum n (fun k => nth i x 0 * coeff (nth i h []) k * nth k y 0)).
Proof.
  intros Lh Lx Ly F. unfold hform. rewrite (vdot_bigsum n) by (rewrite ?jac_mul_length; auto). apply bigsum_ext. intros i Hi.
  rewrite jac_mul_nth by lia. rewrite (dot_coeff n) by (auto; apply (proj1 (Forall_forall _ _) F), nth_In; lia).
  rewrite <- bigsum_scal. apply bigsum_ext. intros; ring.
Qed.
Lemma bigsum_swap n m (f : nat -> nat -> R) : bigsum n (fun i => bigsum m (f i)) = bigsum m (fun k => bigsum n (fun i => f i k)).
Proof. unfold bigsum at 2 3. apply bigsum_rsum. Qed.
Lemma hform_sym n (h : list (srow R)) x y : length h = n -> length x = n -> length y = n -> Forall (Forall (fun p => (fst p < n)%nat)) h -> hsym n h ->
  hform h x y = hform h y x.
Proof.
  intros Lh Lx Ly F S. rewrite !(hform_bigsum n) by auto. rewrite bigsum_swap. apply bigsum_ext. intros k Hk. apply bigsum_ext. intros i Hi.
  rewrite (S i k Hi Hk). ring.
Qed.
Lemma vadd_length (x d : list R) : length x = length d -> length (vadd x d) = length x.
Proof. intros H. unfold vadd. rewrite map_length, combine_length. lia. Qed.
Lemma vadd_nth (x d : list R) i : length x = length d -> (i < length x)%nat -> nth i (vadd x d) 0 = nth i x 0 + nth i d 0.
Proof. intros H Hi. unfold vadd. rewrite (map_combine_nth _ x d i 0 0 0) by auto. reflexivity. Qed.
Lemma hform_add n (h : list (srow R)) x d : length h = n -> length x = n -> length d = n -> Forall (Forall (fun p => (fst p < n)%nat)) h ->
  hform h (vadd x d) (vadd x d) = hform h x x + hform h x d + hform h d x + hform h d d.
Proof.
  intros Lh Lx Ld F. assert (La : length (vadd x d) = n) by (rewrite vadd_length; lia).
  rewrite !(hform_bigsum n) by auto. rewrite <- !bigsum_plus. apply bigsum_ext. intros i Hi. rewrite <- !bigsum_plus. apply bigsum_ext. intros k Hk.
  rewrite !vadd_nth by lia. ring.
Qed.
Lemma dense_row_dot (r x : list R) n : length r = n -> length x = n -> srow_dot (dense_row r) x = vdot r x.
Proof.
  intros Lr Lx. rewrite (vdot_bigsum n) by auto. rewrite srow_dot_R. unfold dense_row, bigsum. rewrite Lr.
  transitivity (rsum (fun p : R * nat => fst p * nth (snd p) x 0) (combine (map (fun i => nth i r 0) (seq 0 n)) (seq 0 n))).
  - assert (E : map (fun i => nth i r 0) (seq 0 n) = r). { apply nth_ext with 0 0; [rewrite map_length, seq_length; lia|]. intros i Hi. rewrite map_length, seq_length in Hi. rewrite nth_map_seq by exact Hi. reflexivity. }
    rewrite E. clear. revert r. generalize (seq 0 n). induction l as [|i l IH]; intros [|a r]; [reflexivity..|]. cbn [combine]. rewrite !rsum_cons. cbn [fst snd]. f_equal. apply IH.
  - rewrite combine_map_l, rsum_map. cbn [fst snd]. generalize (seq 0 n). induction l as [|i l IH]; [reflexivity|]. cbn [combine]. rewrite !rsum_cons. cbn [fst snd]. f_equal. exact IH.
Qed.
Lemma dense_of_dot n (r : srow R) x : Forall (fun p => (fst p < n)%nat) r -> length x = n -> vdot (dense_of n r) x = srow_dot r x.
Proof.
  intros F L. rewrite (vdot_bigsum n) by (unfold dense_of; rewrite ?map_length, ?seq_length; auto). rewrite (dot_coeff n) by auto. apply bigsum_ext.
  intros i Hi. unfold dense_of. rewrite nth_map_seq by exact Hi. reflexivity.
Qed.

Lemma half_mul (h : list (srow R)) y :
  jac_mul (map (map (fun cv : nat * R => (fst cv, 1 / 2 * snd cv))) h) y = map (Rmult (1 / 2)) (jac_mul h y).
Proof.
  unfold jac_mul. rewrite !map_map. apply map_ext. intros r. rewrite !srow_dot_R, rsum_map, <- rsum_scal. apply rsum_ext. intros p _. cbn [fst snd]. ring.
Qed.
(** a single expression *)
Definition qvalue1 (c : R) (lin : srow R) (q : list (srow R)) (y : list R) : R := c + srow_dot lin y + quad_value q y.
Lemma quad_create1_value n f (jr : srow R) (h : list (srow R)) x d : (2 <= n)%nat -> length h = n -> length x = n -> length d = n ->
  Forall (fun p => (fst p < n)%nat) jr -> Forall (Forall (fun p => (fst p < n)%nat)) h -> concat h <> [] ->
  let '(c, lin, q) := quad_create1 n (f - srow_dot jr x) jr h x in
  qvalue1 c lin q x = f /\ (hsym n h -> qvalue1 c lin q (vadd x d) = f + srow_dot jr d + 1 / 2 * hform h d d).
Proof.
  intros Hn Lh Lx Ld Fj Fh Hne. unfold quad_create1.
  destruct (Nat.eqb_spec (list_sum (map (@length _) h)) 0) as [E|E].
  { exfalso. apply Hne. clear -E. induction h as [|r h IH]; [reflexivity|]. change (length r + list_sum (map (@length _) h) = 0)%nat in E. destruct r; [|cbn in E; lia]. cbn. apply IH. cbn in E. exact E. }
  assert (D5 : @ndec R _ 5 (-1) = 1 / 2) by (change (@ndec R R_Num 5 (-1)) with (5 / (10 * 1)); lra). rewrite D5. rnum.
  assert (Lhx : length (jac_mul h x) = n) by (rewrite jac_mul_length; auto).
  assert (Ldo : length (dense_of n jr) = n) by (unfold dense_of; rewrite map_length, seq_length; auto).
  assert (Lin : forall y, length y = n -> srow_dot (dense_row (vzip Rminus (dense_of n jr) (jac_mul h x))) y = srow_dot jr y - hform h y x).
  { intros y Ly. rewrite (dense_row_dot _ _ n) by vl.
    rewrite <- (dense_of_dot n jr y) by auto. unfold hform. rewrite !(vdot_bigsum n) by vl.
    replace (bigsum n (fun i => nth i y 0 * nth i (jac_mul h x) 0)) with (bigsum n (fun i => nth i (jac_mul h x) 0 * nth i y 0)) by (apply bigsum_ext; intros; ring).
    unfold Rminus at 2.
    replace (- bigsum n (fun i => nth i (jac_mul h x) 0 * nth i y 0)) with (bigsum n (fun i => (-1) * (nth i (jac_mul h x) 0 * nth i y 0))) by (rewrite bigsum_scal; ring).
    rewrite <- bigsum_plus. apply bigsum_ext. intros i Hi. rewrite vzip_nth by lia. ring. }
  assert (Qv : forall y, length y = n -> quad_value (map (map (fun cv : nat * R => (fst cv, 1 / 2 * snd cv))) h) y = 1 / 2 * hform h y y).
  { intros y Ly. destruct h as [|r1 [|r2 h]]; [cbn in Lh; lia|cbn in Lh; lia|]. cbn [map quad_value].
    change (vdot y (jac_mul (map (map (fun cv : nat * R => (fst cv, 1 / 2 * snd cv))) (r1 :: r2 :: h)) y) = 1 / 2 * hform (r1 :: r2 :: h) y y).
    rewrite half_mul. unfold hform. set (hh := r1 :: r2 :: h) in *.
    rewrite !(vdot_bigsum n) by (rewrite ?map_length, ?jac_mul_length; auto). rewrite <- bigsum_scal. apply bigsum_ext. intros i Hi.
    rewrite (nth_map_d (Rmult (1 / 2)) _ i 0 0) by (rewrite jac_mul_length; lia). ring. }
  unfold qvalue1. split.
  - rewrite Lin, Qv by auto. fold (hform h x x). lra.
  - intros S. assert (La : length (vadd x d) = n) by (rewrite vadd_length; lia). rewrite Lin, Qv by auto. fold (hform h x x).
    rewrite (hform_add n) by auto. assert (Ea : srow_dot jr (vadd x d) = srow_dot jr x + srow_dot jr d) by (apply srow_dot_add; lia). rewrite Ea.
    assert (Eh : hform h (vadd x d) x = hform h x x + hform h d x).
    { rewrite !(hform_bigsum n) by auto. rewrite <- bigsum_plus. apply bigsum_ext. intros i Hi. rewrite <- bigsum_plus. apply bigsum_ext. intros k Hk. rewrite vadd_nth by lia. ring. }
    rewrite Eh, (hform_sym n h x d) by auto. lra.
Qed.

Definition z0 : R * srow R * list (srow R) := (0, [], []).
Definition z1 : srow R * list (srow R) := ([], []).

Theorem C18_partial (n : nat) (old : quads R) (f : list R) (j : list (srow R)) (hs : list (list (srow R))) (x : list R) :
  (2 <= n)%nat -> length j = length f -> length hs = length f -> length x = n ->
  Forall (Forall (fun p => (fst p < n)%nat)) j ->
  Forall (fun h => length h = n /\ Forall (Forall (fun p => (fst p < n)%nat)) h /\ concat h <> []) hs ->
  exists q, qe_create n old f j hs x = Val q /\ qe_values q x = Val f /\
    forall d, length d = n -> Forall (hsym n) hs ->
      exists vs, qe_values q (vadd x d) = Val vs /\ length vs = length f /\
        forall i, (i < length f)%nat -> nth i vs 0 = nth i f 0 + srow_dot (nth i j []) d + 1 / 2 * hform (nth i hs []) d d.
Proof.
  intros Hn Lj Lh Lx Fj Fh. unfold qe_create. rewrite !(proj2 (Nat.eqb_eq _ _)) by lia. cbn [andb]. eexists. split; [reflexivity|].
  set (cs := vzip nsub f (jac_mul j x)). set (l := map _ (combine cs (combine j hs))).
  assert (Lc : length cs = length f) by (unfold cs; rewrite vzip_length; rewrite ?jac_mul_length; lia).
  assert (Ll : length l = length f) by (unfold l; rewrite map_length, !combine_length; lia).
  assert (Nl : forall i, (i < length f)%nat -> nth i l z0 = quad_create1 n (nth i f 0 - srow_dot (nth i j []) x) (nth i j []) (nth i hs []) x).
  { intros i Hi. unfold l. rewrite (map_combine_nth _ cs (combine j hs) i z0 0 z1) by vl. cbn [fst snd].
    unfold z1. rewrite combine_nth by lia. cbn [fst snd]. unfold cs. rewrite vzip_nth, jac_mul_nth by vl. reflexivity. }
  assert (V : forall y, exists vs, qe_values {| qe_const := map (fun p => fst (fst p)) l; qe_lin := map (fun p => snd (fst p)) l; qe_quad := map snd l; qe_obj_lin := qe_obj_lin old; qe_obj_quad := qe_obj_quad old |} y = Val vs /\ length vs = length f /\
    forall i, (i < length f)%nat -> nth i vs 0 = qvalue1 (fst (fst (nth i l z0))) (snd (fst (nth i l z0))) (snd (nth i l z0)) y).
  { intros y. unfold qe_values. cbn [qe_lin qe_const qe_quad]. rewrite !map_length, Nat.eqb_refl.
    set (out := vzip _ _ _). assert (Lo : length out = length f) by (unfold out; rewrite vzip_length; rewrite ?jac_mul_length, ?map_length; lia).
    exists (map (fun p => fst p + quad_value (snd p) y) (combine out (map snd l))). split.
    - rewrite Lo, Ll, Nat.eqb_refl. destruct (map snd l) eqn:E; [|reflexivity]. f_equal. destruct l; [|discriminate]. cbn in Ll. destruct out; [reflexivity|cbn in Lo; lia].
    - split; [rewrite map_length, combine_length, map_length; lia|]. intros i Hi.
      rewrite (map_combine_nth _ out (map snd l) i 0 0 []) by vl. cbn [fst snd]. unfold out.
      rewrite vzip_nth, jac_mul_nth by vl.
      rewrite (nth_map_d snd l i [] z0), (nth_map_d (fun p => fst (fst p)) l i 0 z0), (nth_map_d (fun p => snd (fst p)) l i [] z0) by lia.
      reflexivity. }
  assert (Q : forall i d, (i < length f)%nat -> length d = n -> let '(c, lin, q) := nth i l z0 in
     qvalue1 c lin q x = nth i f 0 /\ (hsym n (nth i hs []) -> qvalue1 c lin q (vadd x d) = nth i f 0 + srow_dot (nth i j []) d + 1 / 2 * hform (nth i hs []) d d)).
  { intros i d Hi Ld. rewrite Nl by exact Hi. rewrite Forall_forall in Fj, Fh. destruct (Fh (nth i hs [])) as (A & B & C); [apply nth_In; lia|].
    apply quad_create1_value; auto. apply Fj, nth_In. lia. }
  split.
  - destruct (V x) as (vs & -> & Lv & Nv). f_equal. apply nth_ext with 0 0; [exact Lv|]. intros i Hi. rewrite Lv in Hi. rewrite Nv by exact Hi.
    specialize (Q i x Hi Lx). destruct (nth i l z0) as [[c lin] q]. apply Q.
  - intros d Ld Hs. destruct (V (vadd x d)) as (vs & -> & Lv & Nv). exists vs. split; [reflexivity|]. split; [exact Lv|]. intros i Hi. rewrite Nv by exact Hi.
    specialize (Q i d Hi Ld). destruct (nth i l z0) as [[c lin] q]. apply Q. eapply Forall_forall; [exact Hs|]. apply nth_In. lia.
Qed.
Print Assumptions C18_partial.
Example C18_ex : hsym 2 [[(0%nat, 2); (1%nat, 1)]; [(0%nat, 1)]] /\ concat [[(0%nat, 2); (1%nat, 1)]; [(0%nat, 1)]] <> [].
Proof.
  split; [|discriminate]. intros [|[|i]] [|[|k]] Hi Hk; try lia; cbn; rnum; lra.
Qed.
