(** * The gradient of the singularity term from the singular vectors (C99) *)
From Coq Require Import ZArith List Bool Reals Lra Lia Arith.
From Verif Require Import Num NumFacts Common RSums ExprsProps ModelingModel KinModel KinProofs KinSingProps.
Import ListNotations.
Local Open Scope R_scope.

Lemma bigsum_le n f g : (forall i, (i < n)%nat -> f i <= g i) -> bigsum n f <= bigsum n g.
Proof. intros H. apply rsum_le. intros i Hi. apply H. apply in_seq in Hi. lia. Qed.
Lemma bigsum_abs n f : Rabs (bigsum n f) <= bigsum n (fun i => Rabs (f i)).
Proof. induction n; [rewrite !bigsum_0, Rabs_R0; lra|]. rewrite !bigsum_S. eapply Rle_trans; [apply Rabs_triang|]. lra. Qed.
Lemma d_bigsum n (f : nat -> R -> R) (d : nat -> R) x : (forall i, (i < n)%nat -> derivable_pt_lim (f i) x (d i)) ->
  derivable_pt_lim (fun t => bigsum n (fun i => f i t)) x (bigsum n d).
Proof. intros H. apply d_sum. intros i Hi. apply H. apply in_seq in Hi. lia. Qed.

Definition shape (m w : nat) (M : list (list R)) : Prop := length M = m /\ Forall (fun r => length r = w) M.
Lemma shape_row m w M i : shape m w M -> (i < m)%nat -> length (nth i M []) = w.
Proof. intros [L F] Hi. rewrite Forall_forall in F. apply F, nth_In. lia. Qed.
Lemma bilinear_sum m w u M v : length u = m -> length v = w -> shape m w M ->
  bilinear u M v = bigsum m (fun i => nth i u 0 * bigsum w (fun j => ent M i j * nth j v 0)).
Proof.
  intros Hu Hv HM. unfold bilinear. rewrite (vdot_bigsum m) by (rewrite ?map_length; auto; apply HM).
  apply bigsum_ext. intros i Hi. f_equal. pose (f := fun r : list R => vdot r v). fold f.
  rewrite (nth_indep _ 0 (f [])) by (rewrite map_length; destruct HM; lia). rewrite (map_nth f). unfold f.
  rewrite (vdot_bigsum w) by (auto; eapply shape_row; eauto). apply bigsum_ext. intros j Hj. reflexivity.
Qed.
Lemma jac_partial_shape m w J eps q k : shape m w (J q) -> shape m w (J (upd q k (nth k q 0 + eps))) ->
  shape m w (jac_partial J eps q k) /\
  forall i j, (i < m)%nat -> (j < w)%nat -> ent (jac_partial J eps q k) i j = (ent (J (upd q k (nth k q 0 + eps))) i j - ent (J q) i j) / eps.
Proof.
  intros H1 H2. unfold jac_partial. change (el q k + eps)%num with (nth k q 0 + eps). set (A := J (upd q k (nth k q 0 + eps))) in *. set (B := J q) in *.
  set (g := fun rr : list R * list R => map (fun ab : R * R => ((fst ab - snd ab) / eps)%num) (combine (fst rr) (snd rr))).
  assert (LC : length (combine A B) = m) by (rewrite combine_length; destruct H1, H2; lia).
  assert (Rw : forall i, (i < m)%nat -> nth i (map g (combine A B)) [] = g (nth i A [], nth i B [])).
  { intros i Hi. rewrite (nth_indep _ [] (g ([], []))) by (rewrite map_length; lia). rewrite (map_nth g), combine_nth by (destruct H1, H2; lia). reflexivity. }
  split.
  - split; [rewrite map_length; exact LC|]. apply Forall_forall. intros r Hr. apply In_nth with (d := []) in Hr. destruct Hr as (i & Hi & <-).
    rewrite map_length, LC in Hi. rewrite Rw by exact Hi. unfold g. cbn [fst snd]. rewrite map_length, combine_length, (shape_row m w A i), (shape_row m w B i) by auto. lia.
  - intros i j Hi Hj. unfold ent, el. rewrite Rw by exact Hi. unfold g. cbn [fst snd].
    set (h := fun ab : R * R => ((fst ab - snd ab) / eps)%num).
    assert (LA := shape_row m w A i H2 Hi). assert (LB := shape_row m w B i H1 Hi).
    change (@nzero R R_Num) with 0. rewrite (nth_indep _ 0 (h (0, 0))) by (rewrite map_length, combine_length; lia).
    rewrite (map_nth h), combine_nth by lia. reflexivity.
Qed.

Section Svd.
  Variables (m w : nat) (J : list R -> list (list R)) (svd : list (list R) -> list R * R * list R).
  Let u y := fst (fst (svd (J y))).
  Let sv y := snd (fst (svd (J y))).
  Let v y := snd (svd (J y)).

  (** at y the numbers are a singular value with unit singular vectors *)
  Definition triple (y : list R) : Prop :=
    shape m w (J y) /\ length (u y) = m /\ length (v y) = w /\ 0 <= sv y /\
    bigsum m (fun i => nth i (u y) 0 * nth i (u y) 0) = 1 /\ bigsum w (fun j => nth j (v y) 0 * nth j (v y) 0) = 1 /\
    (forall i, (i < m)%nat -> bigsum w (fun j => ent (J y) i j * nth j (v y) 0) = sv y * nth i (u y) 0) /\
    (forall j, (j < w)%nat -> bigsum m (fun i => nth i (u y) 0 * ent (J y) i j) = sv y * nth j (v y) 0).

  Lemma triple_value y : triple y -> sv y = bigsum m (fun i => nth i (u y) 0 * bigsum w (fun j => ent (J y) i j * nth j (v y) 0)).
  Proof.
    intros (Hs & Lu & Lv & _ & Nu & Nv & Hr & Hc). rewrite (bigsum_ext m _ (fun i => sv y * (nth i (u y) 0 * nth i (u y) 0))).
    - rewrite bigsum_scal, Nu. ring.
    - intros i Hi. rewrite Hr by exact Hi. ring.
  Qed.

  Variables (q : list R) (k : nat) (du dv : nat -> R) (dJ : nat -> nat -> R).
  Hypothesis Hk : (k < length q)%nat.
  Hypothesis Ht : forall t, triple (upd q k t).
  Hypothesis Hdu : forall i, (i < m)%nat -> partial (fun y => nth i (u y) 0) q k (du i).
  Hypothesis Hdv : forall j, (j < w)%nat -> partial (fun y => nth j (v y) 0) q k (dv j).
  Hypothesis HdJ : forall i j, (i < m)%nat -> (j < w)%nat -> partial (fun y => ent (J y) i j) q k (dJ i j).

  Lemma unit_orth (f : list R -> list R) n (df : nat -> R) :
    (forall t, bigsum n (fun i => nth i (f (upd q k t)) 0 * nth i (f (upd q k t)) 0) = 1) ->
    (forall i, (i < n)%nat -> partial (fun y => nth i (f y) 0) q k (df i)) -> bigsum n (fun i => nth i (f q) 0 * df i) = 0.
  Proof.
    intros Hn Hd. assert (D : derivable_pt_lim (fun t => bigsum n (fun i => nth i (f (upd q k t)) 0 * nth i (f (upd q k t)) 0)) (nth k q 0)
       (bigsum n (fun i => df i * nth i (f (upd q k (nth k q 0))) 0 + nth i (f (upd q k (nth k q 0))) 0 * df i))).
    { apply (d_bigsum n (fun i t => nth i (f (upd q k t)) 0 * nth i (f (upd q k t)) 0)). intros i Hi. apply (d_mult (fun t => nth i (f (upd q k t)) 0) (fun t => nth i (f (upd q k t)) 0)); apply Hd; exact Hi. }
    assert (D0 : derivable_pt_lim (fun t => bigsum n (fun i => nth i (f (upd q k t)) 0 * nth i (f (upd q k t)) 0)) (nth k q 0) 0).
    { eapply d_ext; [|apply (d_const 1)]. intros t. cbv beta. symmetry. apply Hn. }
    assert (E := uniqueness_limite _ _ _ _ D D0). rewrite upd_same in E.
    rewrite (bigsum_ext n _ (fun i => 2 * (nth i (f q) 0 * df i))) in E by (intros; ring). rewrite bigsum_scal in E. lra.
  Qed.

  Lemma sv_derivative : partial sv q k (bigsum m (fun i => nth i (u q) 0 * bigsum w (fun j => dJ i j * nth j (v q) 0))).
  Proof.
    assert (Tq : triple q) by (rewrite <- (upd_same q k); apply Ht).
    assert (Ou : bigsum m (fun i => nth i (u q) 0 * du i) = 0) by (apply (unit_orth u); [intros t; apply (Ht t)|exact Hdu]).
    assert (Ov : bigsum w (fun j => nth j (v q) 0 * dv j) = 0) by (apply (unit_orth v); [intros t; apply (Ht t)|exact Hdv]).
    unfold partial. eapply d_ext; [intros t; symmetry; apply triple_value, Ht|]. cbv beta.
    eapply d_eq; [|apply (d_bigsum m (fun i t => nth i (u (upd q k t)) 0 * bigsum w (fun j => ent (J (upd q k t)) i j * nth j (v (upd q k t)) 0))
      (fun i => du i * bigsum w (fun j => ent (J (upd q k (nth k q 0))) i j * nth j (v (upd q k (nth k q 0))) 0) +
                nth i (u (upd q k (nth k q 0))) 0 * bigsum w (fun j => dJ i j * nth j (v (upd q k (nth k q 0))) 0 + ent (J (upd q k (nth k q 0))) i j * dv j)))].
    - rewrite upd_same. destruct Tq as (Hs & Lu & Lv & _ & Nu & Nv & Hr & Hc).
      rewrite (bigsum_ext m _ (fun i => sv q * (nth i (u q) 0 * du i) + (nth i (u q) 0 * bigsum w (fun j => dJ i j * nth j (v q) 0) + nth i (u q) 0 * bigsum w (fun j => ent (J q) i j * dv j)))).
      2:{ intros i Hi. rewrite Hr by exact Hi. rewrite bigsum_plus. ring. }
      rewrite !bigsum_plus, bigsum_scal, Ou.
      replace (bigsum m (fun i => nth i (u q) 0 * bigsum w (fun j => ent (J q) i j * dv j))) with 0; [ring|].
      rewrite (bigsum_ext m _ (fun i => bigsum w (fun j => dv j * (nth i (u q) 0 * ent (J q) i j)))).
      2:{ intros i _. rewrite <- bigsum_scal. apply bigsum_ext. intros; ring. }
      rewrite bigsum_swap. rewrite (bigsum_ext w _ (fun j => sv q * (nth j (v q) 0 * dv j))).
      2:{ intros j Hj. rewrite bigsum_scal, Hc by exact Hj. ring. }
      rewrite bigsum_scal, Ov. ring.
    - intros i Hi. apply (d_mult (fun t => nth i (u (upd q k t)) 0) (fun t => bigsum w (fun j => ent (J (upd q k t)) i j * nth j (v (upd q k t)) 0))); [apply Hdu; exact Hi|].
      apply (d_bigsum w (fun j t => ent (J (upd q k t)) i j * nth j (v (upd q k t)) 0)). intros j Hj.
      apply (d_mult (fun t => ent (J (upd q k t)) i j) (fun t => nth j (v (upd q k t)) 0)); [apply HdJ|apply Hdv]; assumption.
  Qed.
End Svd.

(** C99: the code's gradient, from the singular vectors and a one-sided difference of the kinematic Jacobian, is the
    derivative of the error up to L*eps, where L bounds how fast the derivatives of the Jacobian change between
    the two points.  The hypotheses are the contract of the decomposition and the smoothness of its parts *)
Theorem C99_difference : forall (m w : nat) (J : list R -> list (list R)) (svd : list (list R) -> list R * R * list R) (q : list R) (k : nat)
    (du dv : nat -> R) (dJ : nat -> nat -> R -> R) (eps lambda L : R),
  let u y := fst (fst (svd (J y))) in let sv y := snd (fst (svd (J y))) in let v y := snd (svd (J y)) in
  (k < length q)%nat -> 0 < eps -> 0 < lambda ->
  (forall t, triple m w J svd (upd q k t)) ->
  (forall i, (i < m)%nat -> partial (fun y => nth i (u y) 0) q k (du i)) ->
  (forall j, (j < w)%nat -> partial (fun y => nth j (v y) 0) q k (dv j)) ->
  (forall i j t, (i < m)%nat -> (j < w)%nat -> derivable_pt_lim (fun t => ent (J (upd q k t)) i j) t (dJ i j t)) ->
  (forall i j t, (i < m)%nat -> (j < w)%nat -> nth k q 0 <= t <= nth k q 0 + eps -> Rabs (dJ i j t - dJ i j (nth k q 0)) <= L * (t - nth k q 0)) ->
  exists d, partial (fun y => singularity_err lambda (sv y)) q k d /\
    Rabs (nth k (singularity_gradient J svd eps lambda q) 0 - d) <=
      L * eps * (bigsum m (fun i => Rabs (nth i (u q) 0)) * bigsum w (fun j => Rabs (nth j (v q) 0))) / ((sv q + lambda) * (sv q + lambda)).
Proof.
  intros m w J svd q k du dv dJ eps lambda L u sv v Hk He Hl Ht Hdu Hdv HdJ HL.
  assert (Tq : triple m w J svd q) by (rewrite <- (upd_same q k); apply Ht).
  assert (D := sv_derivative m w J svd q k du dv (fun i j => dJ i j (nth k q 0)) Ht Hdu Hdv (fun i j Hi Hj => HdJ i j _ Hi Hj)).
  fold u sv v in D. cbv beta in D.
  set (ds := bigsum m (fun i => nth i (u q) 0 * bigsum w (fun j => dJ i j (nth k q 0) * nth j (v q) 0))) in *.
  set (dsv := map (fun k => bilinear (u q) (jac_partial J eps q k) (v q)) (seq 0 (length q))).
  assert (Hsv : 0 <= sv q) by apply Tq.
  exists (ds * (-1 / ((sv q + lambda) * (sv q + lambda)))). split.
  { unfold partial, singularity_err. rnum.
    eapply d_eq; [|apply d_minus; [apply d_div; [apply (d_const 1)|apply d_plus; [apply D|apply (d_const lambda)]|]|apply d_const]].
    - cbv beta. rewrite !upd_same. field. lra.
    - cbv beta. rewrite upd_same. lra. }
  assert (E : nth k (singularity_gradient J svd eps lambda q) 0 = bilinear (u q) (jac_partial J eps q k) (v q) * (-1 / ((sv q + lambda) * (sv q + lambda)))).
  { unfold singularity_gradient. replace (svd (J q)) with (u q, sv q, v q) by (unfold u, sv, v; destruct (svd (J q)) as [[? ?] ?]; reflexivity).
    cbv iota beta. unfold singularity_jac. rewrite map_map. rewrite nth_map_seq by exact Hk. reflexivity. }
  rewrite E. clear E. assert (Sq : shape m w (J q)) by apply Tq. assert (Se : shape m w (J (upd q k (nth k q 0 + eps)))) by apply Ht.
  destruct (jac_partial_shape m w J eps q k Sq Se) as [Sp Ep].
  rewrite (bilinear_sum m w) by (auto; apply Tq). set (A := bigsum m _).
  replace (A * (-1 / ((sv q + lambda) * (sv q + lambda))) - ds * (-1 / ((sv q + lambda) * (sv q + lambda)))) with (- ((A - ds) / ((sv q + lambda) * (sv q + lambda)))) by (field; lra).
  rewrite Rabs_Ropp. unfold Rdiv. rewrite Rabs_mult. assert (P : 0 < / ((sv q + lambda) * (sv q + lambda))) by (apply Rinv_0_lt_compat, Rmult_lt_0_compat; lra).
  rewrite (Rabs_pos_eq (/ _)) by lra. apply Rmult_le_compat_r; [lra|].
  assert (B : forall i j, (i < m)%nat -> (j < w)%nat -> Rabs (ent (jac_partial J eps q k) i j - dJ i j (nth k q 0)) <= L * eps).
  { intros i j Hi Hj. rewrite Ep by assumption.
    destruct (MVT_cor2 (fun t => ent (J (upd q k t)) i j) (dJ i j) (nth k q 0) (nth k q 0 + eps)) as (c & Ec & Hc); [lra|intros t _; apply HdJ; assumption|].
    cbv beta in Ec. rewrite upd_same in Ec. rewrite Ec. replace (dJ i j c * (nth k q 0 + eps - nth k q 0) / eps) with (dJ i j c) by (field; lra).
    assert (K := HL i j c Hi Hj ltac:(lra)). eapply Rle_trans; [exact K|]. assert (0 <= L).
    { assert (0 <= L * (c - nth k q 0)) by (eapply Rle_trans; [apply Rabs_pos|exact K]). apply Rnot_lt_le. intros Hneg. assert (0 < - L * (c - nth k q 0)) by (apply Rmult_lt_0_compat; lra). lra. }
    apply Rmult_le_compat_l; lra. }
  replace (A - ds) with (bigsum m (fun i => nth i (u q) 0 * bigsum w (fun j => (ent (jac_partial J eps q k) i j - dJ i j (nth k q 0)) * nth j (v q) 0))).
  2:{ unfold A, ds. replace (bigsum m (fun i => nth i (u q) 0 * bigsum w (fun j => dJ i j (nth k q 0) * nth j (v q) 0))) with
        (- bigsum m (fun i => (-1) * (nth i (u q) 0 * bigsum w (fun j => dJ i j (nth k q 0) * nth j (v q) 0)))) by (rewrite bigsum_scal; ring).
      unfold Rminus at 2. rewrite Ropp_involutive, <- bigsum_plus. apply bigsum_ext. intros i Hi.
      rewrite (bigsum_ext w _ (fun j => ent (jac_partial J eps q k) i j * nth j (v q) 0 + (-1) * (dJ i j (nth k q 0) * nth j (v q) 0))) by (intros; ring).
      rewrite bigsum_plus, bigsum_scal. ring. }
  set (su := bigsum m (fun i => Rabs (nth i (u q) 0))). set (sw := bigsum w (fun j => Rabs (nth j (v q) 0))).
  replace (L * eps * (su * sw)) with (bigsum m (fun i => L * eps * sw * Rabs (nth i (u q) 0))) by (unfold su; rewrite bigsum_scal; ring).
  eapply Rle_trans; [apply bigsum_abs|]. apply bigsum_le. intros i Hi. rewrite Rabs_mult, Rmult_comm. apply Rmult_le_compat_r; [apply Rabs_pos|].
  unfold sw. rewrite <- bigsum_scal. eapply Rle_trans; [apply bigsum_abs|]. apply bigsum_le. intros j Hj. rewrite Rabs_mult.
  apply Rmult_le_compat_r; [apply Rabs_pos|]. apply B; assumption.
Qed.
Print Assumptions C99_difference.

(** a Jacobian meeting all the hypotheses: the single number exp(q_0), its own singular value *)
Example C99_difference_ex : let J := fun q : list R => [[exp (nth 0 q 0)]] in let svd := fun M : list (list R) => ([1], ent M 0 0, [1]) in
  exists d, partial (fun y => singularity_err 1 (exp (nth 0 y 0))) [0; 5] 0 d /\
    Rabs (nth 0 (singularity_gradient J svd (1 / 2) 1 [0; 5]) 0 - d) <= exp (1 / 2) * (1 / 2) * (1 * 1) / ((exp 0 + 1) * (exp 0 + 1)).
Proof.
  intros J svd. destruct (C99_difference 1 1 J svd [0; 5] 0 (fun _ => 0) (fun _ => 0) (fun _ _ t => exp t) (1 / 2) 1 (exp (1 / 2))) as (d & D & B).
  - cbn. lia.
  - lra.
  - lra.
  - intros t. unfold triple, bigsum, rsum. cbn. split; [split; [reflexivity|repeat constructor]|]. split; [reflexivity|]. split; [reflexivity|].
    split; [unfold ent, el; cbn; left; apply exp_pos|]. split; [ring|]. split; [ring|]. split; intros [|i] Hi; try lia; unfold ent, el; cbn; ring.
  - intros i Hi. apply (d_const (nth i [1] 0)).
  - intros i Hi. apply (d_const (nth i [1] 0)).
  - intros [|i] [|j] t Hi Hj; try lia. unfold ent, el. cbn. apply derivable_pt_lim_exp.
  - intros i j t _ _. cbn [nth]. intros Ht. destruct (Req_dec t 0) as [->|Hne]; [rewrite Rminus_diag_eq, Rabs_R0 by reflexivity; lra|].
    destruct (MVT_cor2 exp exp 0 t) as (c & Ec & Hc); [lra|intros; apply derivable_pt_lim_exp|]. rewrite Ec.
    rewrite Rabs_pos_eq by (apply Rmult_le_pos; [left; apply exp_pos|lra]). apply Rmult_le_compat_r; [lra|]. left. apply exp_increasing. lra.
  - exists d. split; [exact D|]. eapply Rle_trans; [exact B|]. right. unfold bigsum, rsum. cbn. rewrite Rabs_R1. unfold ent, el, J. cbn. rewrite !Rplus_0_r. reflexivity.
Qed.
