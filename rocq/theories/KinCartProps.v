(** * Cartesian velocity and pose terms (C96, C97, C98) *)
From Coq Require Import ZArith List Bool Reals Lra Lia Arith Sorted.
From Verif Require Import Num NumFacts Common ModelingModel CollisionModel TrajoptModel KinModel KinProofs.
Import ListNotations.
Local Open Scope R_scope.

(** ** Cartesian velocity *)
Definition component (o : outcome (list R)) (i : nat) : R := match o with Ok v => nth i v 0 | _ => 0 end.

Lemma firstn_pre {A} (a b : list A) n : length a = n -> firstn n (a ++ b) = a.
Proof. intros <-. rewrite firstn_app, firstn_all, Nat.sub_diag. cbn. apply app_nil_r. Qed.
Lemma skipn_pre {A} (a b : list A) n : length a = n -> skipn n (a ++ b) = b.
Proof. intros <-. rewrite skipn_app, skipn_all, Nat.sub_diag. reflexivity. Qed.
Lemma Rabs_iff a b : Rabs a <= b <-> a <= b /\ - a <= b.
Proof. unfold Rabs. destruct (Rcase_abs a); lra. Qed.
Lemma cart_vel_eq (pos : list R -> list R -> list R) tcp n (limit : R) q0 q1 : length q0 = n -> length q1 = n ->
  cart_vel_err pos tcp n limit (q0 ++ q1) =
  Ok (map (fun k => nth k (pos tcp q1) 0 - nth k (pos tcp q0) 0 - limit) [0; 1; 2]%nat ++
      map (fun k => nth k (pos tcp q0) 0 - nth k (pos tcp q1) 0 - limit) [0; 1; 2]%nat).
Proof.
  intros H0 H1. unfold cart_vel_err. rewrite app_length, H0, H1. destruct (Nat.ltb_spec (n + n) n); [lia|].
  replace (n + n - n)%nat with n by lia. rewrite firstn_pre, skipn_pre by auto. reflexivity.
Qed.
Ltac six i := let K := fresh in assert (K : (i = 0 \/ i = 1 \/ i = 2 \/ i = 3 \/ i = 4 \/ i = 5)%nat) by lia;
  destruct K as [-> | [-> | [-> | [-> | [-> | ->]]]]].

(** C96: no component of the error is positive exactly when the link moves at most [limit] along each axis *)
Theorem C96_value : forall (pos : list R -> list R -> list R) (tcp : list R) (n : nat) (limit : R) (q0 q1 : list R),
  length q0 = n -> length q1 = n ->
  exists v, cart_vel_err pos tcp n limit (q0 ++ q1) = Ok v /\ length v = 6%nat /\
  ((forall i, (i < 6)%nat -> nth i v 0 <= 0) <->
   (forall k, (k < 3)%nat -> Rabs (nth k (pos tcp q1) 0 - nth k (pos tcp q0) 0) <= limit)).
Proof.
  intros pos tcp n limit q0 q1 H0 H1. eexists. split; [apply cart_vel_eq; auto|]. split; [reflexivity|].
  cbn [map app]. split.
  - intros H k Hk. assert (A0 := H 0%nat ltac:(lia)). assert (A1 := H 1%nat ltac:(lia)). assert (A2 := H 2%nat ltac:(lia)).
    assert (A3 := H 3%nat ltac:(lia)). assert (A4 := H 4%nat ltac:(lia)). assert (A5 := H 5%nat ltac:(lia)).
    cbn [nth] in A0, A1, A2, A3, A4, A5. apply Rabs_iff.
    assert (K : (k = 0 \/ k = 1 \/ k = 2)%nat) by lia. destruct K as [-> | [-> | ->]]; lra.
  - intros H i Hi. assert (B0 := H 0%nat ltac:(lia)). assert (B1 := H 1%nat ltac:(lia)). assert (B2 := H 2%nat ltac:(lia)).
    apply Rabs_iff in B0, B1, B2. six i; cbn [nth]; lra.
Qed.
Print Assumptions C96_value.

Lemma upd_app_l (a b : list R) k t : (k < length a)%nat -> upd (a ++ b) k t = upd a k t ++ b.
Proof. revert k; induction a as [|x a IH]; intros [|k] H; cbn in *; try lia; auto. f_equal. apply IH. lia. Qed.
Lemma upd_app_r (a b : list R) k t : (length a <= k)%nat -> upd (a ++ b) k t = a ++ upd b (k - length a) t.
Proof. revert k; induction a as [|x a IH]; intros k H; cbn in *; [rewrite Nat.sub_0_r; auto|]. destruct k; [lia|]. cbn. f_equal. apply IH. lia. Qed.

(** the m-th column of a 3-row block *)
Lemma block_nth (m : list (list R)) c n k : (k < n)%nat -> nth k (map (fun j => ent m c j) (seq 0 n)) 0 = ent m c k.
Proof. intros. rewrite nth_map_seq by auto. reflexivity. Qed.
Lemma block_len (m : list (list R)) c n : length (map (fun j => ent m c j) (seq 0 n)) = n.
Proof. rewrite map_length, seq_length. reflexivity. Qed.
Lemma opp_nth (l : list R) k : nth k (map Ropp l) 0 = - nth k l 0.
Proof. rewrite <- (map_nth Ropp). rewrite Ropp_0. reflexivity. Qed.

(** C96: CartVelJacCalculator is the exact derivative of CartVelErrCalculator, provided calcJacobian is that of
    the position it is asked for; the tool centre point is the link origin or not within 1e-12 of it *)
Theorem C96_jacobian : forall (pos : list R -> list R -> list R) (jac : list R -> list (list R)) (jac_at : list R -> list R -> list (list R))
    (tcp : list R) (n : nat) (limit : R) (x : list R),
  (forall q c k, length q = n -> (c < 3)%nat -> (k < n)%nat -> partial (fun q => nth c (pos [0; 0; 0] q) 0) q k (nth k (nth c (jac q) []) 0)) ->
  (forall p q c k, length q = n -> (c < 3)%nat -> (k < n)%nat -> partial (fun q => nth c (pos p q) 0) q k (nth k (nth c (jac_at p q) []) 0)) ->
  tcp = [0; 0; 0] \/ (exists v, In v tcp /\ / 1000000000000 < Rabs v) ->
  length x = (2 * n)%nat ->
  exists J, cart_vel_jac jac jac_at tcp n x = Ok J /\ length J = 6%nat /\
  forall i k, (i < 6)%nat -> (k < 2 * n)%nat -> length (nth i J []) = (2 * n)%nat /\
    partial (fun y => component (cart_vel_err pos tcp n limit y) i) x k (nth k (nth i J []) 0).
Proof.
  intros pos jac jac_at tcp n limit x Hj Hja Ht Hx.
  assert (D12 : Rdec 1 (-12) = / 1000000000000) by (unfold Rdec; change (Pos.to_nat 12) with 12%nat; simpl; field).
  assert (HJ : forall q c k, length q = n -> (c < 3)%nat -> (k < n)%nat ->
             partial (fun q => nth c (pos tcp q) 0) q k (ent (if is_zero tcp then jac q else jac_at tcp q) c k)).
  { intros q c k Hq Hc Hk. destruct Ht as [-> | (v & Hv & Hb)].
    - replace (is_zero [0; 0; 0]) with true; [apply Hj; auto|]. unfold is_zero. rnum. cbn [forallb]. rewrite Rabs_R0, D12.
      destruct (Rleb_spec 0 (/ 1000000000000)); [reflexivity|lra].
    - replace (is_zero tcp) with false; [apply Hja; auto|]. symmetry. apply not_true_iff_false. unfold is_zero. rewrite forallb_forall.
      intros H. specialize (H v Hv). rnum. rewrite D12 in H. rcmp. lra. }
  clear Hj Hja. pose (q0 := firstn n x). pose (q1 := skipn n x). assert (E : x = q0 ++ q1) by (symmetry; apply firstn_skipn).
  assert (L0 : length q0 = n) by (apply firstn_length_le; lia). assert (L1 : length q1 = n) by (unfold q1; rewrite skipn_length; lia).
  clearbody q0 q1. subst x. unfold cart_vel_jac. rewrite app_length, L0, L1. destruct (Nat.ltb_spec (n + n) n); [lia|].
  replace (n + n - n)%nat with n by lia. rewrite firstn_pre, skipn_pre by auto.
  assert (P0 := fun c k => HJ q0 c k L0). assert (P1 := fun c k => HJ q1 c k L1).
  set (J0 := if is_zero tcp then jac q0 else jac_at tcp q0) in *. set (J1 := if is_zero tcp then jac q1 else jac_at tcp q1) in *. clearbody J0 J1. clear HJ.
  eexists. split; [reflexivity|]. split; [reflexivity|]. intros i k Hi Hk. rnum. split.
  - six i; cbn [map app nth]; rewrite app_length, ?map_length, !seq_length; lia.
  - unfold partial. destruct (Nat.ltb_spec k n) as [Hkn|Hkn].
    + assert (V : forall t, upd (q0 ++ q1) k t = upd q0 k t ++ q1) by (intros; apply upd_app_l; lia).
      assert (Hlen : forall t, length (upd q0 k t) = n) by (intros; rewrite upd_length; auto).
      rewrite (app_nth1 q0 q1) by lia.
      assert (DP : forall c, (c < 3)%nat -> derivable_pt_lim (fun t => nth c (pos tcp q1) 0 - nth c (pos tcp (upd q0 k t)) 0 - limit) (nth k q0 0) (- ent J0 c k)).
      { intros c Hc. eapply d_eq; [|apply d_minus; [apply d_minus; [apply d_const|apply P0; auto]|apply d_const]]. ring. }
      assert (DM : forall c, (c < 3)%nat -> derivable_pt_lim (fun t => nth c (pos tcp (upd q0 k t)) 0 - nth c (pos tcp q1) 0 - limit) (nth k q0 0) (ent J0 c k)).
      { intros c Hc. eapply d_eq; [|apply d_minus; [apply d_minus; [apply P0; auto|apply d_const]|apply d_const]]. ring. }
      eapply d_ext; [intros t; rewrite V, cart_vel_eq by auto; reflexivity|].
      six i; cbn [map app nth component]; rewrite app_nth1 by (rewrite ?map_length, seq_length; lia); rewrite ?opp_nth, block_nth by auto; auto.
    + assert (V : forall t, upd (q0 ++ q1) k t = q0 ++ upd q1 (k - n) t) by (intros; rewrite upd_app_r by lia; rewrite L0; auto).
      assert (Hlen : forall t, length (upd q1 (k - n) t) = n) by (intros; rewrite upd_length; auto).
      rewrite (app_nth2 q0 q1), L0 by lia.
      assert (DP : forall c, (c < 3)%nat -> derivable_pt_lim (fun t => nth c (pos tcp (upd q1 (k - n) t)) 0 - nth c (pos tcp q0) 0 - limit) (nth (k - n) q1 0) (ent J1 c (k - n))).
      { intros c Hc. eapply d_eq; [|apply d_minus; [apply d_minus; [apply P1; auto; lia|apply d_const]|apply d_const]]. ring. }
      assert (DM : forall c, (c < 3)%nat -> derivable_pt_lim (fun t => nth c (pos tcp q0) 0 - nth c (pos tcp (upd q1 (k - n) t)) 0 - limit) (nth (k - n) q1 0) (- ent J1 c (k - n))).
      { intros c Hc. eapply d_eq; [|apply d_minus; [apply d_minus; [apply d_const|apply P1; auto; lia]|apply d_const]]. ring. }
      eapply d_ext; [intros t; rewrite V, cart_vel_eq by auto; reflexivity|].
      six i; cbn [map app nth component]; rewrite app_nth2 by (rewrite ?map_length, seq_length; lia);
        rewrite ?map_length, seq_length, ?opp_nth, block_nth by lia; auto.
Qed.
Print Assumptions C96_jacobian.

(** a prismatic joint along x followed by one along y *)
Definition ex_pos (p q : list R) : list R := [nth 0 q 0 + nth 0 p 0; nth 1 q 0 + nth 1 p 0; nth 2 p 0].
Definition ex_jac (q : list R) : list (list R) := [[1; 0]; [0; 1]; [0; 0]; [0; 0]; [0; 0]; [0; 0]].
Example C96_ex : (forall p q c k, length q = 2%nat -> (c < 3)%nat -> (k < 2)%nat -> partial (fun q => nth c (ex_pos p q) 0) q k (nth k (nth c (ex_jac q) []) 0)) /\
  cart_vel_err ex_pos [0; 0; 1] 2 1 [0; 0; 2; -3] = Ok [1; -4; -1; -3; 2; -1] /\
  cart_vel_jac ex_jac (fun _ => ex_jac) [0; 0; 1] 2 [0; 0; 2; -3] =
    Ok [[-1; -0; 1; 0]; [-0; -1; 0; 1]; [-0; -0; 0; 0]; [1; 0; -1; -0]; [0; 1; -0; -1]; [0; 0; -0; -0]].
Proof.
  split; [|split].
  - intros p q c k Hq Hc Hk. unfold partial. assert (C : (c = 0 \/ c = 1 \/ c = 2)%nat) by lia. assert (K : (k = 0 \/ k = 1)%nat) by lia.
    destruct C as [-> | [-> | ->]]; cbn [ex_pos nth]; [| |destruct K as [-> | ->]; apply d_const];
      (eapply d_eq; [|apply d_plus; [apply d_coord; lia|apply d_const]]); destruct K as [-> | ->]; unfold delta; cbn; ring.
  - rewrite (cart_vel_eq ex_pos _ 2 1 [0; 0] [2; -3]) by reflexivity. apply f_equal. cbn [map app ex_pos nth]. repeat (apply (f_equal2 (@cons R)); [ring|]). reflexivity.
  - unfold cart_vel_jac. cbn [length Nat.ltb Nat.leb]. destruct (is_zero [0; 0; 1]); reflexivity.
Qed.

(** C96: as a cost (absolute values, no coefficients) it is twice the larger of limit and displacement, summed
    over the axes *)
Theorem C96_cost : forall (pos : list R -> list R -> list R) (tcp : list R) (n : nat) (limit : R) (q0 q1 : list R),
  length q0 = n -> length q1 = n -> 0 <= limit ->
  exists v, cart_vel_err pos tcp n limit (q0 ++ q1) = Ok v /\
  err_cost_value ABS [] v = Rsum (map (fun k => 2 * Rmax limit (Rabs (nth k (pos tcp q1) 0 - nth k (pos tcp q0) 0))) [0; 1; 2]%nat).
Proof.
  intros pos tcp n limit q0 q1 H0 H1 Hl. eexists. split; [apply cart_vel_eq; auto|].
  unfold err_cost_value. rewrite vsum_R. cbn [map app Rsum pen_value]. rnum.
  assert (K : forall a b, Rabs (a - b - limit) + Rabs (b - a - limit) = 2 * Rmax limit (Rabs (a - b))).
  { intros a b. unfold Rabs. unfold Rmax. repeat match goal with |- context [Rcase_abs ?z] => destruct (Rcase_abs z) | |- context [Rle_dec ?y ?z] => destruct (Rle_dec y z) end; lra. }
  rewrite <- !K. ring.
Qed.
Print Assumptions C96_cost.

(** ** Pose terms *)
(** C97: a pose term keeps exactly the components whose coefficient exceeds 1e-5 in absolute value, positions
    before rotations, each with its own coefficient *)
Theorem C97_selection : forall (pos_coeffs rot_coeffs : list R), length pos_coeffs = 3%nat -> length rot_coeffs = 3%nat ->
  let (idx, c) := pose_selection pos_coeffs rot_coeffs in
  length idx = length c /\ (length idx <= 6)%nat /\ StronglySorted lt idx /\
  (forall i, In i idx <-> (i < 6)%nat /\ / 100000 < Rabs (nth i (pos_coeffs ++ rot_coeffs) 0)) /\
  (forall k, (k < length idx)%nat -> nth k c 0 = nth (nth k idx 0%nat) (pos_coeffs ++ rot_coeffs) 0).
Proof.
  intros pc rc Hp Hr. destruct pc as [|p0 [|p1 [|p2 [|]]]]; try discriminate. destruct rc as [|r0 [|r1 [|r2 [|]]]]; try discriminate.
  assert (D : Rdec 1 (-5) = / 100000) by (unfold Rdec; change (Pos.to_nat 5) with 5%nat; simpl; field).
  unfold pose_selection. rnum. rewrite D. cbn [seq map el nth]. cbn [Nat.add].
  pose (all := [(0%nat, p0); (1%nat, p1); (2%nat, p2); (3%nat, r0); (4%nat, r1); (5%nat, r2)]).
  pose (keep := fun ic : nat * R => Rltb (/ 100000) (Rabs (snd ic))).
  match goal with |- context [map fst ?l] => replace l with (filter keep all) by (unfold all; rewrite <- filter_app; reflexivity) end.
  assert (Hall : forall i v, In (i, v) all <-> (i < 6)%nat /\ v = nth i [p0; p1; p2; r0; r1; r2] 0).
  { intros i v. unfold all. cbn [In]. split.
    - intros H. repeat (destruct H as [[= <- <-]|H]; [split; [lia|reflexivity]|]). destruct H.
    - intros [Hi ->]. assert (K : (i = 0 \/ i = 1 \/ i = 2 \/ i = 3 \/ i = 4 \/ i = 5)%nat) by lia. destruct K as [-> | [-> | [-> | [-> | [-> | ->]]]]]; cbn [nth]; tauto. }
  cbn [app]. split; [rewrite !map_length; reflexivity|]. split; [|split; [|split]].
  - rewrite map_length. clear. unfold all. assert (F : forall l : list (nat * R), (length (filter keep l) <= length l)%nat).
    { induction l as [|a l IH]; cbn; auto. destruct (keep a); cbn; lia. } specialize (F [(0%nat, p0); (1%nat, p1); (2%nat, p2); (3%nat, r0); (4%nat, r1); (5%nat, r2)]). cbn [length] in F. exact F.
  - assert (S0 : StronglySorted lt (map fst all)).
    { unfold all. cbn [map fst]. repeat constructor. }
    clearbody all. clear Hall. induction all as [|a l IH]; cbn; [constructor|]. cbn in S0. inversion S0 as [|? ? S1 S2]; subst.
    destruct (keep a); [|auto]. cbn. constructor; auto. rewrite Forall_forall in *. intros i Hi. apply S2. apply in_map_iff in Hi.
    destruct Hi as (b & <- & Hb). apply filter_In in Hb. apply in_map. tauto.
  - intros i. rewrite in_map_iff. split.
    + intros ([j v] & <- & Hj). apply filter_In in Hj. destruct Hj as [Hj Hk]. apply Hall in Hj. destruct Hj as [Hj ->]. split; [exact Hj|].
      unfold keep in Hk. cbn [snd fst] in *. rcmp. exact Hk.
    + intros [Hi Hb]. exists (i, nth i [p0; p1; p2; r0; r1; r2] 0). split; [reflexivity|]. apply filter_In. split; [apply Hall; auto|].
      unfold keep. cbn [snd]. rcmp. exact Hb.
  - intros k Hk. rewrite map_length in Hk.
    assert (Hn : In (nth k (filter keep all) (0%nat, 0)) (filter keep all)) by (apply nth_In; auto).
    apply filter_In in Hn. destruct Hn as [Hn _]. destruct (nth k (filter keep all) (0%nat, 0)) as [j v] eqn:E. apply Hall in Hn.
    rewrite (nth_indep _ 0%nat (fst (0%nat, 0))) by (rewrite map_length; auto). rewrite (nth_indep (map snd _) 0 (snd (0%nat, 0))) by (rewrite map_length; auto).
    rewrite !(map_nth fst), !(map_nth snd), E. cbn [fst snd]. tauto.
Qed.
Print Assumptions C97_selection.
Example C97_selection_ex : pose_selection [1; 0; -2] [0; / 1000000; 3] = ([0; 2; 5]%nat, [1; -2; 3]).
Proof.
  assert (D : Rdec 1 (-5) = / 100000) by (unfold Rdec; change (Pos.to_nat 5) with 5%nat; simpl; field).
  unfold pose_selection. rnum. rewrite D. cbn [seq map el nth filter app Nat.add snd fst].
  rewrite Rabs_R0, (Rabs_pos_eq 1), (Rabs_pos_eq 3), (Rabs_pos_eq (/ 1000000)), (Rabs_left (-2)) by lra.
  repeat (rcase; try lra). reflexivity.
Qed.

(** ** Finite-difference Jacobians *)
Lemma nth_error_seq a n k : (k < n)%nat -> nth_error (seq a n) k = Some (a + k)%nat.
Proof. revert a k; induction n as [|n IH]; intros a [|k] H; cbn; try lia; [f_equal; lia|]. rewrite IH by lia. f_equal. lia. Qed.
Lemma columns_eq (eps : R) (q : list R) (d : list R -> list R) : forall k i, (i + k <= length q)%nat ->
  columns eps q q d i k = map (fun j => map (fun v => v / eps) (d (upd q j (nth j q 0 + eps)))) (seq i k).
Proof.
  induction k as [|k IH]; intros i Hk; cbn [columns seq map]; auto. unfold el. rnum.
  rewrite upd_upd. change nzero with 0. rewrite upd_same. f_equal. rewrite Nat.add_1_r. apply IH. lia.
Qed.
Lemma reduced_nth idx (e : list R) i : (i < length idx)%nat -> nth i (reduced idx e) 0 = nth (nth i idx 0%nat) e 0.
Proof. intros. unfold reduced. rewrite (nth_indep _ 0 (el e 0%nat)) by (rewrite map_length; auto). rewrite map_nth. reflexivity. Qed.

(** tolerances that make the two error functions agree: none, different, or equal *)
Definition plain_or_banded (lower upper : list R) : Prop := almost_equal_vec lower upper = false \/ lower = upper.
(** the contract of calcJacobianTransformErrorDiff: componentwise difference of the toleranced errors *)
Definition with_band (lower upper e : list R) (i : nat) : R :=
  match lower, upper with [], [] => nth i e 0 | _, _ => apply_tolerance (nth i lower 0) (nth i upper 0) (nth i e 0) end.

Lemma apply_tol_nth (lower upper e : list R) i : length lower = 6%nat -> length upper = 6%nat -> length e = 6%nat -> (i < 6)%nat ->
  nth i (apply_tolerances lower upper e) 0 = apply_tolerance (nth i lower 0) (nth i upper 0) (nth i e 0).
Proof.
  intros Hl Hu He Hi. unfold apply_tolerances.
  pose (f := fun t : R * R * R => apply_tolerance (fst (fst t)) (snd (fst t)) (snd t)). fold f.
  rewrite (nth_indep _ 0 (f ((0, 0), 0))) by (rewrite map_length, !combine_length; lia).
  rewrite (map_nth f). rewrite !combine_nth by (rewrite ?combine_length; lia). reflexivity.
Qed.
Lemma apply_tol_equal (c e : R) : apply_tolerance c c e = e - c.
Proof. unfold apply_tolerance. rnum. repeat (rcase; cbn [andb]); lra. Qed.

(** C97: with one frame at rest, CartPoseJacCalculator is the forward difference quotient of
    CartPoseErrCalculator, component by component of the selection *)
Theorem C97_partial : forall {Tf : Type} (transform_error : Tf -> Tf -> list R) (source target : list R -> Tf)
    (error_diff : Tf -> Tf -> Tf -> list R -> list R -> list R) (target_active : bool) (idx : list nat) (eps : R) (lower upper q : list R),
  (forall a b, length (transform_error a b) = 6%nat) ->
  (forall a b b' lo up i, (i < 6)%nat ->
     nth i (error_diff a b b' lo up) 0 = with_band lo up (transform_error a b') i - with_band lo up (transform_error a b) i) ->
  (if target_active then forall q', source q' = source q else forall q', target q' = target q) ->
  (lower = [] /\ upper = []) \/ (length lower = 6%nat /\ length upper = 6%nat /\ plain_or_banded lower upper) ->
  Forall (fun i => (i < 6)%nat) idx ->
  let J := cart_pose_jac source target error_diff target_active idx eps lower upper q in
  let E := cart_pose_err transform_error source target target_active idx lower upper in
  length J = length q /\
  forall i k, (i < length idx)%nat -> (k < length q)%nat ->
    nth i (nth k J []) 0 = (nth i (E (upd q k (nth k q 0 + eps))) 0 - nth i (E q) 0) / eps.
Proof.
  intros Tf te source target ed act idx eps lower upper q Hte Hed Hrest Htol Hidx J E.
  assert (HJ : J = map (fun j => map (fun v => v / eps) (reduced idx
    (if act then ed (source q) (target q) (target (upd q j (nth j q 0 + eps))) lower upper else ed (target q) (source q) (source (upd q j (nth j q 0 + eps))) lower upper))) (seq 0 (length q))).
  { unfold J, cart_pose_jac. rewrite columns_eq by lia. reflexivity. }
  rewrite HJ. split; [rewrite map_length, seq_length; reflexivity|]. intros i k Hi Hk. rewrite nth_map_seq by auto.
  set (q' := upd q k (nth k q 0 + eps)).
  rewrite (nth_indep _ 0 (0 / eps)) by (unfold reduced; rewrite !map_length; auto). rewrite (map_nth (fun v => v / eps)). f_equal.
  rewrite reduced_nth by auto. unfold E, cart_pose_err. rewrite !reduced_nth by auto.
  assert (Hn : (nth i idx 0 < 6)%nat) by (rewrite Forall_forall in Hidx; apply Hidx, nth_In; auto). set (n := nth i idx 0%nat) in *. clearbody n.
  assert (T : forall e, length e = 6%nat -> exists c, nth n (tolerant lower upper e) 0 = with_band lower upper e n + c /\ c = (if almost_equal_vec lower upper then nth n lower 0 else 0)).
  { intros e He. eexists. split; [|reflexivity]. unfold tolerant, with_band. destruct Htol as [[-> ->] | (Hl & Hu & Hb)].
    - destruct (almost_equal_vec [] []); destruct n; cbn; ring.
    - destruct lower as [|l lower]; [discriminate|]. destruct Hb as [-> | <-].
      + rewrite apply_tol_nth by auto. destruct upper; ring.
      + rewrite apply_tol_equal. destruct (almost_equal_vec (l :: lower) (l :: lower)) eqn:Ea; [ring|]. rewrite apply_tol_nth, apply_tol_equal by auto. ring. }
  destruct act.
  - rewrite Hed by auto. rewrite (Hrest q'). destruct (T (te (source q) (target q'))) as (c & -> & ->); auto.
    destruct (T (te (source q) (target q))) as (c & -> & ->); auto. ring.
  - rewrite Hed by auto. rewrite (Hrest q'). destruct (T (te (target q) (source q'))) as (c & -> & ->); auto.
    destruct (T (te (target q) (source q))) as (c & -> & ->); auto. ring.
Qed.
Print Assumptions C97_partial.

(** two joints: the source frame is moved by the first, the target frame is fixed *)
Definition ex_te (a b : R) : list R := repeat (b - a) 6.
Definition ex_ed (a b b' : R) (lo up : list R) : list R := map (fun i => with_band lo up (ex_te a b') i - with_band lo up (ex_te a b) i) (seq 0 6).
Example C97_ex : (forall a b, length (ex_te a b) = 6%nat) /\
  (forall a b b' lo up i, (i < 6)%nat -> nth i (ex_ed a b b' lo up) 0 = with_band lo up (ex_te a b') i - with_band lo up (ex_te a b) i) /\
  (forall q q' : list R, (fun _ : list R => 5) q' = (fun _ => 5) q) /\ Forall (fun i => (i < 6)%nat) [0; 3]%nat /\
  cart_pose_jac (fun q => nth 0 q 0) (fun _ => 5) ex_ed false [0; 3]%nat (1 / 2) [] [] [1; 2] = [[1; 1]; [0; 0]].
Proof.
  split; [reflexivity|]. split; [intros; unfold ex_ed; rewrite nth_map_seq by auto; reflexivity|]. split; [reflexivity|].
  split; [repeat constructor|]. cbn. unfold el. cbn.
  match goal with |- [[?a; ?b]; [?c; ?d]] = _ => replace a with 1 by field; replace b with 1 by field; replace c with 0 by field; replace d with 0 by field end.
  reflexivity.
Qed.

(** C97: when the frame supposed to rest moves too, the Jacobian is wrong: both frames on the same joint, the
    error is constant and its derivative is computed as 1 *)
Theorem C97_refuted : exists (source target : list R -> R) (q : list R) (eps : R), 0 < eps /\
  let E := cart_pose_err ex_te source target true [0%nat] [] [] in
  let J := cart_pose_jac source target ex_ed true [0%nat] eps [] [] q in
  (forall q', nth 0 (E q') 0 = 0) /\ nth 0 (nth 0 J []) 0 = 1.
Proof.
  exists (fun q => nth 0 q 0), (fun q => nth 0 q 0), [1], (1 / 2). split; [lra|]. cbv zeta. split.
  - intros q'. unfold cart_pose_err, reduced, tolerant, ex_te. unfold el. rnum. cbn [map nth repeat]. ring.
  - cbn. unfold el. cbn. field.
Qed.
Print Assumptions C97_refuted.

(** C97: DynamicCartPoseJacCalculator is the forward difference quotient of DynamicCartPoseErrCalculator *)
Theorem C97_dynamic : forall {Tf : Type} (transform_error : Tf -> Tf -> list R) (source target : list R -> Tf)
    (error_diff2 : Tf -> Tf -> Tf -> Tf -> list R -> list R -> list R) (idx : list nat) (eps : R) (lower upper q : list R),
  (forall a b, length (transform_error a b) = 6%nat) ->
  (forall a a' b b' lo up i, (i < 6)%nat ->
     nth i (error_diff2 a a' b b' lo up) 0 = with_band lo up (transform_error a' b') i - with_band lo up (transform_error a b) i) ->
  (lower = [] /\ upper = []) \/ (length lower = 6%nat /\ length upper = 6%nat /\ plain_or_banded lower upper) ->
  Forall (fun i => (i < 6)%nat) idx ->
  let J := dynamic_pose_jac source target error_diff2 idx eps lower upper q in
  let E := dynamic_pose_err transform_error source target idx lower upper in
  length J = length q /\
  forall i k, (i < length idx)%nat -> (k < length q)%nat ->
    nth i (nth k J []) 0 = (nth i (E (upd q k (nth k q 0 + eps))) 0 - nth i (E q) 0) / eps.
Proof.
  intros Tf te source target ed idx eps lower upper q Hte Hed Htol Hidx J E.
  assert (HJ : J = map (fun j => map (fun v => v / eps) (reduced idx
    (ed (target q) (target (upd q j (nth j q 0 + eps))) (source q) (source (upd q j (nth j q 0 + eps))) lower upper))) (seq 0 (length q))).
  { unfold J, dynamic_pose_jac. rewrite columns_eq by lia. reflexivity. }
  rewrite HJ. split; [rewrite map_length, seq_length; reflexivity|]. intros i k Hi Hk. rewrite nth_map_seq by auto.
  set (q' := upd q k (nth k q 0 + eps)).
  rewrite (nth_indep _ 0 (0 / eps)) by (unfold reduced; rewrite !map_length; auto). rewrite (map_nth (fun v => v / eps)). f_equal.
  rewrite reduced_nth by auto. unfold E, dynamic_pose_err. rewrite !reduced_nth by auto.
  assert (Hn : (nth i idx 0 < 6)%nat) by (rewrite Forall_forall in Hidx; apply Hidx, nth_In; auto). set (n := nth i idx 0%nat) in *. clearbody n.
  assert (T : forall e, length e = 6%nat -> exists c, nth n (tolerant lower upper e) 0 = with_band lower upper e n + c /\ c = (if almost_equal_vec lower upper then nth n lower 0 else 0)).
  { intros e He. eexists. split; [|reflexivity]. unfold tolerant, with_band. destruct Htol as [[-> ->] | (Hl & Hu & Hb)].
    - destruct (almost_equal_vec [] []); destruct n; cbn; ring.
    - destruct lower as [|l lower]; [discriminate|]. destruct Hb as [-> | <-].
      + rewrite apply_tol_nth by auto. destruct upper; ring.
      + rewrite apply_tol_equal. destruct (almost_equal_vec (l :: lower) (l :: lower)) eqn:Ea; [ring|]. rewrite apply_tol_nth, apply_tol_equal by auto. ring. }
  rewrite Hed by auto. destruct (T (te (target q') (source q'))) as (c & -> & ->); auto.
  destruct (T (te (target q) (source q))) as (c & -> & ->); auto. ring.
Qed.
Print Assumptions C97_dynamic.
Definition ex_ed2 (a a' b b' : R) (lo up : list R) : list R := map (fun i => with_band lo up (ex_te a' b') i - with_band lo up (ex_te a b) i) (seq 0 6).
Example C97_dynamic_ex :
  (forall a a' b b' lo up i, (i < 6)%nat -> nth i (ex_ed2 a a' b b' lo up) 0 = with_band lo up (ex_te a' b') i - with_band lo up (ex_te a b) i) /\
  dynamic_pose_jac (fun q => nth 0 q 0) (fun q => 3 * nth 1 q 0) ex_ed2 [2]%nat (1 / 2) [] [] [1; 2] = [[1]; [-3]].
Proof.
  split; [intros; unfold ex_ed2; rewrite nth_map_seq by auto; reflexivity|].
  cbn. unfold el. cbn. apply (f_equal2 (fun a b => [[a]; [b]])); field.
Qed.

(** ** Tolerances *)
(** C98: the constructors accept tolerances exactly when they have equal length and no lower one is above the
    upper one *)
Theorem C98_accepts : forall lower upper : list R,
  tolerances_valid lower upper = true <-> length lower = length upper /\ forall i, (i < length lower)%nat -> nth i lower 0 <= nth i upper 0.
Proof.
  intros lower upper. unfold tolerances_valid. rewrite andb_true_iff, Nat.eqb_eq, negb_true_iff. split.
  - intros [Hl H]. split; [exact Hl|]. intros i Hi. apply Rnot_lt_le. intros Hlt. apply not_true_iff_false in H. apply H. apply existsb_exists.
    exists (nth i (combine lower upper) (0, 0)). split; [apply nth_In; rewrite combine_length; lia|]. rewrite combine_nth by auto. cbn [fst snd]. rnum. rcmp. exact Hlt.
  - intros [Hl H]. split; [exact Hl|]. apply not_true_iff_false. rewrite existsb_exists. intros ([a b] & Hin & Hc). apply (In_nth _ _ (0, 0)) in Hin.
    destruct Hin as (i & Hi & E). rewrite combine_length in Hi. rewrite combine_nth in E by auto. inversion E; subst. specialize (H i ltac:(lia)).
    cbn [fst snd] in Hc. rnum. rcmp. lra.
Qed.
Print Assumptions C98_accepts.

(** C98: with a band of tolerances the error is 0 inside it and the signed distance to it outside.  Missing: bands
    of which every side is narrower than 1e-6 (C98_refuted) *)
Theorem C98_partial : forall {Tf : Type} (transform_error : Tf -> Tf -> list R) (source target : list R -> Tf) (lower upper q : list R) (i : nat),
  (forall a b, length (transform_error a b) = 6%nat) -> length lower = 6%nat -> tolerances_valid lower upper = true -> almost_equal_vec lower upper = false ->
  (i < 6)%nat ->
  let e := nth i (transform_error (target q) (source q)) 0 in
  let r := nth 0 (cart_pose_err transform_error source target false [i] lower upper q) 0 in
  (r = 0 <-> nth i lower 0 <= e <= nth i upper 0) /\
  (e < nth i lower 0 -> r = e - nth i lower 0) /\ (nth i upper 0 < e -> r = e - nth i upper 0).
Proof.
  intros Tf te source target lower upper q i Hte Hl Hv Ha Hi e r. apply C98_accepts in Hv. destruct Hv as [Hlu Hv]. specialize (Hv i ltac:(lia)).
  assert (E : r = apply_tolerance (nth i lower 0) (nth i upper 0) e).
  { unfold r, cart_pose_err. rewrite (reduced_nth [i]) by (cbn; lia). cbn [nth]. unfold tolerant.
    destruct lower as [|l lower]; [discriminate|]. rewrite Ha. apply apply_tol_nth; auto; congruence. }
  rewrite E. clearbody e. unfold apply_tolerance. rnum. repeat (rcase; cbn [andb]); repeat split; intros; lra.
Qed.
Print Assumptions C98_partial.
Lemma almost_equal_close (a b : R) : Rabs (a - b) <= / 1000000 -> almost_equal a b = true.
Proof.
  intros H. unfold almost_equal. rnum. assert (D : Rdec 1 (-6) = / 1000000) by (unfold Rdec; change (Pos.to_nat 6) with 6%nat; simpl; field).
  rewrite D. destruct (Rleb_spec (Rabs (a - b)) (/ 1000000)); [reflexivity|lra].
Qed.
(** C98: tolerances that ask for an offset of exactly 0.1 are ignored: the error is 0 at offset 0, and not at 0.1 *)
Theorem C98_refuted : exists (lower upper : list R) (source target : list R -> R),
  tolerances_valid lower upper = true /\ length lower = 6%nat /\ (forall i, (i < 6)%nat -> nth i lower 0 = / 10 /\ nth i upper 0 = / 10) /\
  (forall q i, (i < 6)%nat -> nth i (ex_te (target q) (source q)) 0 = nth 0 q 0) /\
  (forall i, (i < 6)%nat -> nth 0 (cart_pose_err ex_te source target false [i] lower upper [0]) 0 = 0) /\
  (forall i, (i < 6)%nat -> nth 0 (cart_pose_err ex_te source target false [i] lower upper [/ 10]) 0 = / 10).
Proof.
  exists (repeat (/ 10) 6), (repeat (/ 10) 6), (fun q => nth 0 q 0), (fun _ => 0).
  assert (T : forall e : list R, tolerant (repeat (/ 10) 6) (repeat (/ 10) 6) e = e).
  { intros e. unfold tolerant. cbn [repeat]. replace (almost_equal_vec _ _) with true; [reflexivity|].
    unfold almost_equal_vec. cbn [length Nat.eqb combine forallb fst snd andb]. rewrite almost_equal_close; [reflexivity|].
    replace (/ 10 - / 10) with 0 by ring. rewrite Rabs_R0. lra. }
  split; [|split; [reflexivity|split; [|split; [|split]]]].
  - apply C98_accepts. split; [reflexivity|]. intros. lra.
  - intros i Hi. six i; cbn; lra.
  - intros q i Hi. unfold ex_te. rewrite Rminus_0_r. six i; reflexivity.
  - intros i Hi. unfold cart_pose_err. rewrite T, (reduced_nth [i]) by (cbn; lia). cbn [nth ex_te]. six i; cbn; lra.
  - intros i Hi. unfold cart_pose_err. rewrite T, (reduced_nth [i]) by (cbn; lia). cbn [nth ex_te]. six i; cbn; lra.
Qed.
Print Assumptions C98_refuted.
Example C98_ex : tolerances_valid [-1; 0] [1; 0] = true /\ almost_equal_vec [-1; 0; 0; 0; 0; 0] [1; 0; 0; 0; 0; 0] = false /\
  nth 0 (cart_pose_err ex_te (fun q => nth 0 q 0) (fun _ => 0) false [0%nat] [-1; 0; 0; 0; 0; 0] [1; 0; 0; 0; 0; 0] [3]) 0 = 2.
Proof.
  assert (A : almost_equal_vec [-1; 0; 0; 0; 0; 0] [1; 0; 0; 0; 0; 0] = false).
  { unfold almost_equal_vec. cbn [length Nat.eqb combine forallb fst snd andb]. replace (almost_equal (-1) 1) with false; [reflexivity|].
    unfold almost_equal. rewrite nmax_R. rnum. assert (D : Rdec 1 (-6) = / 1000000) by (unfold Rdec; change (Pos.to_nat 6) with 6%nat; simpl; field). rewrite D.
    replace (-1 - 1) with (-2) by ring. rewrite (Rabs_left (-2)), (Rabs_left (-1)), (Rabs_pos_eq 1), Rmax_left by lra. repeat (rcase; try lra); reflexivity. }
  split; [apply C98_accepts; split; [reflexivity|]; intros i Hi; cbn [length] in Hi; assert (K : (i = 0 \/ i = 1)%nat) by lia; destruct K as [-> | ->]; cbn; lra|].
  split; [exact A|].
  assert (B := C98_partial ex_te (fun q => nth 0 q 0) (fun _ => 0) [-1; 0; 0; 0; 0; 0] [1; 0; 0; 0; 0; 0] [3] 0).
  destruct B as (_ & _ & B); try reflexivity; try exact A; try lia.
  - apply C98_accepts. split; [reflexivity|]. intros i Hi. cbn [length] in Hi. six i; cbn; lra.
  - rewrite B; cbn; lra.
Qed.
