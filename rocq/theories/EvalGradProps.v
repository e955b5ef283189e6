(** * C115: the gradients of contacts are derivatives of the contact point along the normal *)
From Coq Require Import List ZArith Bool Arith Lia Reals Lra.
From Verif Require Import Num NumFacts Common ModelingModel KinProofs CollisionModel CollisionSpec CollisionAvgProofs CollisionProps EvalModel EvalProps.
Import ListNotations.
Local Open Scope R_scope.

Section Grad.
  Context {P : Type}.
  (** kinematics: pose of a link, its rotation and its origin *)
  Variable F : list R -> nat -> P.
  Variable rotate : P -> v3 (T := R) -> v3 (T := R).
  Variable origin : P -> v3 (T := R).
  Variable jac : list R -> nat -> list (v3 (T := R) * v3 (T := R)).

  Definition comp (i : nat) (v : v3 (T := R)) : R := let '(x, y, z) := v in match i with 0%nat => x | 1%nat => y | _ => z end.
  (** where the point [p] of link [l] is *)
  Definition point (l : nat) (p : v3) (q : list R) : v3 := add_3 (origin (F q l)) (rotate (F q l) p).
  Definition inner (u v : v3 (T := R)) : R := comp 0 u * comp 0 v + comp 1 u * comp 1 v + comp 2 u * comp 2 v.
  (** the Jacobian is that of the kinematics: linear velocity of the origin and angular velocity *)
  Definition jac_ok (n : nat) : Prop := forall q l, length q = n -> length (jac q l) = n /\
    forall k p i, (k < n)%nat -> (i < 3)%nat ->
      partial (fun x => comp i (point l p x)) q k
        (comp i (add_3 (fst (nth k (jac q l) ((0, 0, 0), (0, 0, 0)))) (cross_3 (snd (nth k (jac q l) ((0, 0, 0), (0, 0, 0)))) (rotate (F q l) p)))).
  (** the state at time [u] of the motion from [x] to [y] *)
  Definition state_at (u : R) (x y : list R) : list R := map (fun p => (1 - u) * fst p + u * snd p) (combine x y).
  (** the direction in which link [j] moves away *)
  Definition away (h : hit R P) (j : bool) : v3 := if j then h_normal h else opp_3 (h_normal h).
  Definition local (h : hit R P) (j : bool) : v3 := side (h_local h) j.

  Variable n : nat.
  Hypothesis J : jac_ok n.

  Lemma dot_inner u v : dot_3 u v = inner u v.
  Proof. destruct u as [[? ?] ?], v as [[? ?] ?]. reflexivity. Qed.

  Lemma inner_d u l p q k : length q = n -> (k < n)%nat ->
    partial (fun x => inner u (point l p x)) q k (nth k (map (dot_3 u) (at_point (rotate (F q l) p) (jac q l))) 0).
  Proof.
    intros L K. destruct (J q l L) as [JL JD]. unfold at_point. rewrite map_map.
    rewrite (nth_indep _ 0 (dot_3 u (add_3 (fst ((0, 0, 0), (0, 0, 0))) (cross_3 (snd ((0, 0, 0), (0, 0, 0))) (rotate (F q l) p))))) by (rewrite map_length, JL; exact K).
    rewrite (map_nth (fun x => dot_3 u (add_3 (fst x) (cross_3 (snd x) (rotate (F q l) p))))). rewrite dot_inner.
    unfold inner, partial. apply d_plus; [apply d_plus|]; apply d_scal; apply (JD k p); auto.
  Qed.

  Lemma state_length u x y : length x = n -> length y = n -> length (state_at u x y) = n.
  Proof. intros A B. unfold state_at. rewrite map_length, combine_length. lia. Qed.
  Lemma state_nth u x y k : length x = n -> length y = n -> (k < n)%nat -> nth k (state_at u x y) 0 = (1 - u) * nth k x 0 + u * nth k y 0.
  Proof.
    intros A B K. unfold state_at. rewrite (nth_indep _ 0 ((fun p => (1 - u) * fst p + u * snd p) (0, 0))) by (rewrite map_length, combine_length; lia).
    rewrite (map_nth (fun p : R * R => (1 - u) * fst p + u * snd p)), combine_nth by lia. reflexivity.
  Qed.
  Lemma state_upd_l u x y k t : length x = length y -> (k < length x)%nat -> state_at u (upd x k t) y = upd (state_at u x y) k ((1 - u) * t + u * nth k y 0).
  Proof.
    revert y k. induction x as [|a x IH]; intros [|b y] [|k] L K; cbn in *; try lia; [reflexivity|]. f_equal. apply IH; lia.
  Qed.
  Lemma state_upd_r u x y k t : length x = length y -> (k < length x)%nat -> state_at u x (upd y k t) = upd (state_at u x y) k ((1 - u) * nth k x 0 + u * t).
  Proof.
    revert y k. induction x as [|a x IH]; intros [|b y] [|k] L K; cbn in *; try lia; [reflexivity|]. f_equal. apply IH; lia.
  Qed.

  (** the chain rule along one coordinate *)
  Lemma along_l G u a b k d : length a = n -> length b = n -> (k < n)%nat -> partial G (state_at u a b) k d -> partial (fun x => G (state_at u x b)) a k ((1 - u) * d).
  Proof.
    intros A B K D. unfold partial in *. rewrite state_nth in D by assumption.
    eapply d_ext; [intros t; rewrite state_upd_l by lia; reflexivity|].
    eapply d_eq; [|apply (derivable_pt_lim_comp (fun t => (1 - u) * t + u * nth k b 0) (fun s => G (upd (state_at u a b) k s))); [|exact D]].
    - apply Rmult_comm.
    - eapply d_eq; [|apply d_plus; [apply d_scal, d_id|apply d_const]]. ring.
  Qed.
  Lemma along_r G u a b k d : length a = n -> length b = n -> (k < n)%nat -> partial G (state_at u a b) k d -> partial (fun x => G (state_at u a x)) b k (u * d).
  Proof.
    intros A B K D. unfold partial in *. rewrite state_nth in D by assumption.
    eapply d_ext; [intros t; rewrite state_upd_r by lia; reflexivity|].
    eapply d_eq; [|apply (derivable_pt_lim_comp (fun t => (1 - u) * nth k a 0 + u * t) (fun s => G (upd (state_at u a b) k s))); [|exact D]].
    - apply Rmult_comm.
    - eapply d_eq; [|apply d_plus; [apply d_const|apply d_scal, d_id]]. ring.
  Qed.
End Grad.

(** what the kinematics and the recorded contact must satisfy: the contact of link [j] is at time [u] of the motion from
    [a] to [b], typed Time0 and Time1 only at the ends *)
Definition timed {P} (h : hit R P) (j : bool) (u : R) : Prop :=
  side (h_time h) j = u /\ 0 <= u <= 1 /\
  match side (ct_cc (h_contact h)) j with CCNone => False | CCTime0 => u = 0 | CCTime1 => u = 1 | CCBetween => True end.

Lemma state_at_contact {P} (h : hit R P) j u a b : length a = length b -> timed h j u -> contact_state h j a b = state_at u a b.
Proof.
  intros L (T & B & C). unfold contact_state, state_at. rewrite T.
  assert (E : map (fun p : R * R => (fst p + (snd p - fst p) * u)%num) (combine a b) = map (fun p => (1 - u) * fst p + u * snd p) (combine a b)).
  { apply map_ext. intros p. rnum. ring. }
  destruct (side (ct_cc (h_contact h)) j); try contradiction; try exact E; rewrite C; clear - L.
  - rewrite <- (map_fst_combine_eq a b L) at 1. apply map_ext. intros p. ring.
  - rewrite <- (map_snd_combine_eq a b L) at 1. apply map_ext. intros p. ring.
Qed.
Lemma in_range_ok (u : R) : 0 <= u <= 1 -> ((Rltb 0 u || almost_equal u 0) && (Rltb u 1 || almost_equal u 1))%bool = true.
Proof.
  intros B. assert (Z : forall x : R, almost_equal x x = true).
  { intros x. unfold almost_equal. rnum. replace (x - x) with 0 by ring. rewrite Rabs_R0. destruct (Rleb_spec 0 (Rdec 1 (-6))) as [H|H]; [reflexivity|]. exfalso. revert H. replace (Rdec 1 (-6)) with (/ 1000000) by (unfold Rdec; simpl; lra). lra. }
  destruct (Rltb_spec 0 u) as [H|H], (Rltb_spec u 1) as [H'|H']; cbn [orb andb].
  - reflexivity.
  - replace u with 1 by lra. apply Z.
  - replace u with 0 by lra. rewrite Z. reflexivity.
  - exfalso. lra.
Qed.

(** Contacts at discrete states (both recorded transforms are the pose at the time of contact), newer evaluators: gradient
    and scale give the derivative, along the direction of the link, of the contact point at that time of the motion, with
    respect to either end. *)
Theorem C115_discrete : forall P F rotate origin jac n debug (h : hit R P) j u a b,
  jac_ok F rotate origin jac n -> length a = n -> length b = n -> timed h j u ->
  side (h_tf h) j = F (state_at u a b) (link_of h j) -> side (h_cctf h) j = F (state_at u a b) (link_of h j) ->
  exists s0 g0 s1 g1, gradient_new jac rotate debug h j a b false = Ok (s0, g0) /\ gradient_new jac rotate debug h j a b true = Ok (s1, g1) /\
  forall k, (k < n)%nat ->
    partial (fun x => inner (away h j) (point F rotate origin (link_of h j) (local h j) (state_at u x b))) a k (s0 * nth k g0 0) /\
    partial (fun x => inner (away h j) (point F rotate origin (link_of h j) (local h j) (state_at u a x))) b k (s1 * nth k g1 0).
Proof.
  intros P F rotate origin jac n debug h j u a b JO LA LB T TF CT. pose proof T as (T1 & T2 & T3).
  unfold gradient_new, calc_gradient. rewrite (state_at_contact h j u a b) by (lia || assumption). rewrite T1. rnum. rewrite (in_range_ok u T2). cbn [negb]. rewrite !andb_false_r.
  destruct (cceqb (side (ct_cc (h_contact h)) j) CCNone) eqn:N; [destruct (side (ct_cc (h_contact h)) j); try discriminate; contradiction|].
  rewrite TF, CT. do 4 eexists. split; [reflexivity|]. split; [reflexivity|]. intros k K.
  pose proof (inner_d F rotate origin jac n JO (away h j) (link_of h j) (local h j) (state_at u a b) k (state_length n u a b LA LB) K) as D.
  split.
  - exact (along_l n (fun q => inner (away h j) (point F rotate origin (link_of h j) (local h j) q)) u a b k _ LA LB K D).
  - exact (along_r n (fun q => inner (away h j) (point F rotate origin (link_of h j) (local h j) q)) u a b k _ LA LB K D).
Qed.
Print Assumptions C115_discrete.

(** One state: the gradient is the derivative of the contact point. *)
Theorem C115_single : forall P F rotate origin jac n debug (h : hit R P) j q,
  jac_ok F rotate origin jac n -> length q = n -> side (ct_cc (h_contact h)) j = CCNone -> side (h_tf h) j = F q (link_of h j) ->
  exists g, calc_gradient jac rotate debug h j q false = Ok (1, g) /\
  forall k, (k < n)%nat -> partial (fun x => inner (away h j) (point F rotate origin (link_of h j) (local h j) x)) q k (nth k g 0).
Proof.
  intros P F rotate origin jac n debug h j q JO L N TF. unfold calc_gradient. rewrite N, TF. cbn [cceqb negb]. rewrite andb_false_r. cbn [andb].
  eexists. split; [reflexivity|]. intros k K. exact (inner_d F rotate origin jac n JO (away h j) (link_of h j) (local h j) q k L K).
Qed.
Print Assumptions C115_single.

(** Casts, older evaluators: with the transforms of the two ends recorded, gradient and scale give the derivative of the point
    of the swept hull between the two positions of the contact point. *)
Theorem C115_cast : forall P F rotate origin jac n debug (h : hit R P) j u a b,
  jac_ok F rotate origin jac n -> length a = n -> length b = n -> side (h_time h) j = u -> 0 <= u <= 1 -> side (ct_cc (h_contact h)) j <> CCNone ->
  side (h_tf h) j = F a (link_of h j) -> side (h_cctf h) j = F b (link_of h j) ->
  exists s0 g0 s1 g1, gradient_old jac rotate debug h j a b false = Ok (s0, g0) /\ gradient_old jac rotate debug h j a b true = Ok (s1, g1) /\
  let pos q := inner (away h j) (point F rotate origin (link_of h j) (local h j) q) in
  forall k, (k < n)%nat ->
    partial (fun x => (1 - u) * pos x + u * pos b) a k (s0 * nth k g0 0) /\ partial (fun x => (1 - u) * pos a + u * pos x) b k (s1 * nth k g1 0).
Proof.
  intros P F rotate origin jac n debug h j u a b JO LA LB T1 T2 N TF CT.
  unfold gradient_old. rewrite T1. rnum.
  destruct (cceqb (side (ct_cc (h_contact h)) j) CCNone) eqn:N'; [destruct (side (ct_cc (h_contact h)) j); try discriminate; contradiction|].
  replace (Rleb 0 u) with true by (symmetry; destruct (Rleb_spec 0 u); [reflexivity|lra]). replace (Rleb u 1) with true by (symmetry; destruct (Rleb_spec u 1); [reflexivity|lra]).
  cbn [andb negb]. rewrite !andb_false_r. rewrite TF, CT. do 4 eexists. split; [reflexivity|]. split; [reflexivity|]. intros k K.
  assert (E : forall col, (if j then 1 else - (1)) * dot_3 (h_normal h) col = dot_3 (away h j) col).
  { intros [[x y] z]. unfold away. destruct j, (h_normal h) as [[p q] r]; cbn; rnum; ring. }
  rewrite !(map_ext _ _ E). split.
  - unfold partial. eapply d_eq; [|apply d_plus; [apply d_scal; exact (inner_d F rotate origin jac n JO (away h j) (link_of h j) (local h j) a k LA K)|apply d_const]]. unfold local. ring.
  - unfold partial. eapply d_eq; [|apply d_plus; [apply d_const|apply d_scal; exact (inner_d F rotate origin jac n JO (away h j) (link_of h j) (local h j) b k LB K)]]. unfold local. ring.
Qed.
Print Assumptions C115_cast.

(** A planar arm of one joint: the link frame sits at distance 1 from the axis. *)
Definition arm_F (q : list R) (l : nat) : R := nth 0 q 0.
Definition arm_rotate (t : R) (p : v3 (T := R)) : v3 (T := R) := let '(x, y, z) := p in (x * cos t - y * sin t, x * sin t + y * cos t, z).
Definition arm_origin (t : R) : v3 (T := R) := (cos t, sin t, 0).
Definition arm_jac (q : list R) (l : nat) : list (v3 (T := R) * v3 (T := R)) := [((- sin (nth 0 q 0), cos (nth 0 q 0), 0), (0, 0, 1))].
Lemma arm_jac_ok : jac_ok arm_F arm_rotate arm_origin arm_jac 1.
Proof.
  intros [|t [|t' q]] l L; try discriminate. split; [reflexivity|]. intros [|k] [[x y] z] i K I; [|lia].
  unfold partial. cbn [nth upd arm_jac fst snd cross_3 add_3 arm_F arm_rotate point arm_origin]. unfold arm_F. cbn [nth].
  assert (C : derivable_pt_lim cos t (- sin t)) by apply derivable_pt_lim_cos. assert (D : derivable_pt_lim sin t (cos t)) by apply derivable_pt_lim_sin.
  destruct i as [|[|[|i]]]; [| | |lia]; cbn [comp]; rnum.
  - eapply d_eq; [|apply d_plus; [exact C|apply d_minus; [apply d_scal, C|apply d_scal, D]]]. ring.
  - eapply d_eq; [|apply d_plus; [exact D|apply d_plus; [apply d_scal, D|apply d_scal, C]]]. ring.
  - eapply d_eq; [|apply d_const]. ring.
Qed.
(** contact of the far end of link 1 half way through the motion from 0 to PI, with the poses recorded for its start and end *)
Definition half_hit (tf cctf : R) : hit R R :=
  {| h_contact := {| ct_dist := 0; ct_shape := (0, 0)%Z; ct_sub := (0, 0)%Z; ct_cc := (CCNone, CCBetween); ct_id := 0 |}; h_links := (7, 1)%nat; h_time := (-1, 1 / 2);
     h_tf := (0, tf); h_cctf := (0, cctf); h_local := ((0, 0, 0), (1, 0, 0)); h_normal := (1, 0, 0) |}.
Lemma half_timed tf cctf : timed (half_hit tf cctf) true (1 / 2).
Proof. split; [reflexivity|]. split; [lra|exact I]. Qed.
Lemma half_state : state_at (1 / 2) [0] [PI] = [PI / 2].
Proof. unfold state_at. cbn. f_equal. field. Qed.

Example C115_discrete_ex : (* the recorded gradient at the state itself: half of -2 with respect to either end *)
  gradient_new arm_jac arm_rotate true (half_hit (PI / 2) (PI / 2)) true [0] [PI] false = Ok (1 - 1 / 2, [-2]) /\
  gradient_new arm_jac arm_rotate true (half_hit (PI / 2) (PI / 2)) true [0] [PI] true = Ok (1 / 2, [-2]).
Proof.
  assert (G : forall t, gradient_new arm_jac arm_rotate true (half_hit (PI / 2) (PI / 2)) true [0] [PI] t = Ok (if t then 1 / 2 else 1 - 1 / 2, [-2])).
  { intros t. unfold gradient_new, calc_gradient. rewrite (state_at_contact _ _ (1 / 2)) by (reflexivity || apply half_timed). rewrite half_state.
    cbn [half_hit h_time h_contact ct_cc side fst snd cceqb]. rnum. rewrite in_range_ok by lra. cbn [negb andb]. unfold link_of. cbn. rnum.
    destruct t; cbn; rewrite ?sin_PI2, ?cos_PI2; repeat f_equal; ring. }
  split; apply G.
Qed.

Definition arm_pos (q : list R) : R := inner (1, 0, 0) (point arm_F arm_rotate arm_origin 1 (1, 0, 0) q).
Lemma arm_true : partial (fun x => arm_pos (state_at (1 / 2) x [PI])) [0] 0 (-1).
Proof.
  pose proof (inner_d arm_F arm_rotate arm_origin arm_jac 1 arm_jac_ok (1, 0, 0) 1 (1, 0, 0) (state_at (1 / 2) [0] [PI]) 0 eq_refl (le_n 1)) as D.
  apply (along_l 1 arm_pos (1 / 2) [0] [PI] 0) in D; [|reflexivity|reflexivity|lia]. eapply d_eq; [|exact D].
  rewrite half_state. unfold arm_F. cbn. rnum. rewrite sin_PI2, cos_PI2. field.
Qed.
Lemma arm_hull : partial (fun x => (1 - 1 / 2) * arm_pos x + 1 / 2 * arm_pos [PI]) [0] 0 0.
Proof.
  pose proof (inner_d arm_F arm_rotate arm_origin arm_jac 1 arm_jac_ok (1, 0, 0) 1 (1, 0, 0) [0] 0 eq_refl (le_n 1)) as D.
  eapply d_eq; [|apply d_plus; [apply d_scal, D|apply d_const]]. unfold arm_F. cbn. rnum. rewrite sin_0, cos_0. field.
Qed.

(** Casts, newer evaluators: Jacobian of the state at the time of contact but rotation of the start of the motion.  The result
    is the derivative neither of the contact point at that time nor of the point of the swept hull. *)
Theorem C115_cast_refuted : exists P F rotate origin jac (h : hit R P) u a b s0 g0,
  jac_ok F rotate origin jac 1 /\ length a = 1%nat /\ length b = 1%nat /\ timed h true u /\
  side (h_tf h) true = F a (link_of h true) /\ side (h_cctf h) true = F b (link_of h true) /\
  gradient_new jac rotate true h true a b false = Ok (s0, g0) /\
  let pos q := inner (away h true) (point F rotate origin (link_of h true) (local h true) q) in
  ~ partial (fun x => pos (state_at u x b)) a 0 (s0 * nth 0 g0 0) /\ ~ partial (fun x => (1 - u) * pos x + u * pos b) a 0 (s0 * nth 0 g0 0).
Proof.
  exists R, arm_F, arm_rotate, arm_origin, arm_jac, (half_hit 0 PI), (1 / 2), [0], [PI], (1 - 1 / 2), [-1].
  split; [exact arm_jac_ok|]. split; [reflexivity|]. split; [reflexivity|]. split; [apply half_timed|]. split; [reflexivity|]. split; [reflexivity|]. split.
  - unfold gradient_new, calc_gradient. rewrite (state_at_contact _ _ (1 / 2)) by (reflexivity || apply half_timed). rewrite half_state.
    cbn [half_hit h_time h_contact ct_cc side fst snd cceqb]. rnum. rewrite in_range_ok by lra. cbn [negb andb]. unfold link_of. cbn. rnum.
    rewrite sin_PI2, cos_PI2, sin_0, cos_0. repeat f_equal. ring.
  - cbn [nth]. split; intros D.
    + pose proof (uniqueness_limite _ _ _ _ D arm_true). lra.
    + pose proof (uniqueness_limite _ _ _ _ D arm_hull). lra.
Qed.
Print Assumptions C115_cast_refuted.

(** Contacts at discrete states, older evaluators: rotation of the state at the time of contact but Jacobian of the end of the
    motion.  The result is not the derivative of the contact point. *)
Theorem C115_discrete_refuted : exists P F rotate origin jac (h : hit R P) u a b s0 g0,
  jac_ok F rotate origin jac 1 /\ length a = 1%nat /\ length b = 1%nat /\ timed h true u /\
  side (h_tf h) true = F (state_at u a b) (link_of h true) /\ side (h_cctf h) true = F (state_at u a b) (link_of h true) /\
  gradient_old jac rotate true h true a b false = Ok (s0, g0) /\
  let pos q := inner (away h true) (point F rotate origin (link_of h true) (local h true) q) in
  ~ partial (fun x => pos (state_at u x b)) a 0 (s0 * nth 0 g0 0) /\ ~ partial (fun x => (1 - u) * pos x + u * pos b) a 0 (s0 * nth 0 g0 0).
Proof.
  exists R, arm_F, arm_rotate, arm_origin, arm_jac, (half_hit (PI / 2) (PI / 2)), (1 / 2), [0], [PI], (1 - 1 / 2), [-1].
  split; [exact arm_jac_ok|]. split; [reflexivity|]. split; [reflexivity|]. split; [apply half_timed|]. rewrite half_state. split; [reflexivity|]. split; [reflexivity|]. split.
  - unfold gradient_old. cbn [half_hit h_time h_contact ct_cc side fst snd cceqb]. rnum.
    replace (Rleb 0 (1 / 2)) with true by (symmetry; destruct (Rleb_spec 0 (1 / 2)); [reflexivity|lra]). replace (Rleb (1 / 2) 1) with true by (symmetry; destruct (Rleb_spec (1 / 2) 1); [reflexivity|lra]).
    cbn [negb andb]. unfold link_of. cbn. rnum. rewrite sin_PI2, cos_PI2, sin_0, cos_0. repeat f_equal. ring.
  - cbn [nth]. split; intros D.
    + pose proof (uniqueness_limite _ _ _ _ D arm_true). lra.
    + pose proof (uniqueness_limite _ _ _ _ D arm_hull). lra.
Qed.
Print Assumptions C115_discrete_refuted.

(** what a discrete contact test reports: no type and no time yet, and the poses of the links *)
Definition hit_here {P} (c : econf R P) (m : mgr P) (h : hit R P) : Prop :=
  hit_discrete c h /\ fst (h_time h) < 0 /\ snd (h_time h) < 0 /\ forall j, side (h_tf h) j = fst (m (link_of h j)).

Lemma combine_map_r {A B C} (f : B -> C) (l : list A) (r : list B) : combine l (map f r) = map (fun p => (fst p, f (snd p))) (combine l r).
Proof. revert r. induction l as [|x l IH]; intros [|y r]; cbn; try reflexivity. f_equal. apply IH. Qed.
Lemma in_combine_seq {A} (l : list A) d i x : forall s, In (i, x) (combine (seq s (length l)) l) -> (s <= i < s + length l)%nat /\ x = nth (i - s) l d.
Proof.
  induction l as [|y l IH]; intros s H; cbn [length seq combine] in H; [destruct H|]. cbn [length]. destruct H as [[= <- <-]|H].
  - rewrite Nat.sub_diag. split; [lia|reflexivity].
  - apply IH in H as [H ->]. split; [lia|]. replace (i - s)%nat with (S (i - S s)) by lia. reflexivity.
Qed.

(** Every contact that the newer LVS discrete evaluator records for a motion: the two gradients of a moving link are the
    derivatives of its contact point at the recorded time. *)
Theorem C115_recorded : forall P F rotate origin jac n debug test (c : econf R P) m a b v0 v1 k r h j,
  jac_ok F rotate origin jac n -> length a = n -> length b = n -> 0 < e_lvs c ->
  knows c F -> (forall l, In l (e_diff c) -> ~ In l (e_active c)) ->
  (forall m m', (forall l, m l = m' l) -> test m = test m') -> (forall m, test_ok (hit_here c m) (test m)) ->
  calls sqrt Rceil test false KDiscrete c [(a, b, v0, v1)] (fresh m) = Ok [r] -> In h (rm_get k r) -> moves c (link_of h j) = true ->
  let u := side (h_time h) j in
  exists s0 g0 s1 g1, gradient_new jac rotate debug h j a b false = Ok (s0, g0) /\ gradient_new jac rotate debug h j a b true = Ok (s1, g1) /\
  forall i, (i < n)%nat ->
    partial (fun x => inner (away h j) (point F rotate origin (link_of h j) (local h j) (state_at u x b))) a i (s0 * nth i g0 0) /\
    partial (fun x => inner (away h j) (point F rotate origin (link_of h j) (local h j) (state_at u a x))) b i (s1 * nth i g1 0).
Proof.
  intros P F rotate origin jac n debug test c m a b v0 v1 k r h j JO LA LB LV K DJ X TO C I MV u.
  rewrite (C113_calls R _ P sqrt Rceil test false KDiscrete c F m) in C by assumption. injection C as <-. cbn [outcome_of due] in I.
  destruct (C52_discrete (e_lvs c) a b LV ltac:(lia)) as (_ & _ & L2 & _ & _).
  set (rows := states_discrete sqrt Rceil (e_lvs c) a b) in *.
  assert (RW : forall i, (i < length rows)%nat -> nth i rows [] = state_at (INR i / INR (length rows - 1)) a b).
  { clearbody u. intros i Hi. subst rows. unfold states_discrete in *. match goal with |- context [interp_rows ?k a b] => set (cnt := k) in * end.
    assert (E : length (interp_rows cnt a b) = cnt) by (unfold interp_rows; rewrite map_length, seq_length; reflexivity).
    rewrite E in *. rewrite interp_row by lia. unfold state_at. apply map_ext. intros p. field. apply not_0_INR. lia. }
  rewrite C114_discrete in I.
  2:{ rewrite map_length. exact L2. }
  2:{ intros m0 _. destruct (TO m0) as [A B]. split; [exact A|]. eapply Forall_impl; [|exact B]. intros p. apply Forall_impl. intros x H. apply H. }
  rewrite !map_length in I. apply in_flat_map in I as ([i mi] & IP & I). cbn [fst snd] in I.
  rewrite combine_map_r in IP. apply in_map_iff in IP as ([i' q] & [= <- <-] & IP). cbn [fst snd] in I.
  apply (in_combine_seq rows []) in IP as [IB ->]. rewrite Nat.sub_0_r in I. cbn [Nat.add] in IB.
  apply in_map_iff in I as (x & <- & I). apply filter_In in I as [I _].
  pose proof (test_get _ _ k (TO (posed c F m a (nth i' rows []) (nth i' rows [])))) as FA. rewrite Forall_forall in FA.
  destruct (FA x I) as ([CC AC] & T0 & T1 & TF). set (N := (length rows - 1)%nat) in *.
  assert (NP : 0 < INR N) by (apply lt_0_INR; lia).
  set (h := moment c N i' (kind_discrete N i') true x) in *.
  assert (LK : link_of h j = link_of x j) by reflexivity.
  assert (U : u = INR i' / INR N).
  { unfold u, h. cbn [moment h_time]. unfold link_of in MV, LK. rewrite LK in MV.
    destruct j; cbn [side fst snd] in *; rewrite MV, Rmax_left by lra; f_equal; ring. }
  assert (TFH : side (h_tf h) j = F (state_at u a b) (link_of h j)).
  { change (h_tf h) with (h_tf x). rewrite TF, LK. rewrite LK in MV. unfold posed. rewrite U, <- RW by lia.
    destruct (in_dec Nat.eq_dec (link_of x j) (e_active c)) as [_|NI]; [reflexivity|]. exfalso. apply NI.
    apply existsb_exists in MV as (y & Y & E). apply Nat.eqb_eq in E. subst. exact Y. }
  apply (C115_discrete P F rotate origin jac n debug h j u a b JO LA LB); [|exact TFH|].
  - split; [reflexivity|]. split.
    + rewrite U. split; [apply Rmult_le_pos; [apply pos_INR|left; apply Rinv_0_lt_compat, NP]|].
      apply Rmult_le_reg_r with (INR N); [exact NP|]. unfold Rdiv. rewrite Rmult_assoc, Rinv_l, Rmult_1_r, Rmult_1_l by lra. apply le_INR. lia.
    + assert (CK : side (ct_cc (h_contact h)) j = kind_discrete N i' CCNone).
      { unfold h. cbn [moment h_contact ct_cc]. unfold link_of in MV, LK. rewrite LK in MV. destruct j; cbn [side fst snd] in *; rewrite MV; reflexivity. }
      rewrite CK. unfold kind_discrete. destruct (Nat.eqb_spec i' 0) as [->|]; [rewrite U; cbn; unfold Rdiv; ring|].
      destruct (Nat.eqb_spec i' N) as [->|]; [rewrite U; field; lra|exact Logic.I].
  - change (h_cctf h) with (h_tf h). exact TFH.
Qed.
Print Assumptions C115_recorded.

Definition arm_econf : econf R R :=
  {| e_active := [1%nat]; e_diff := []; e_state := fun q l => Some (arm_F q l); e_fk := fun q l => Some (arm_F q l); e_coeffs := coeff_new 1; e_margin := fun _ => 1;
     e_buffer := 0; e_lvs := 2; e_single := false |}.
Definition arm_contact (m : mgr R) : rmap R R :=
  [((1, 7)%nat, [{| h_contact := {| ct_dist := 0; ct_shape := (0, 0)%Z; ct_sub := (0, 0)%Z; ct_cc := (CCNone, CCNone); ct_id := 0 |}; h_links := (1, 7)%nat; h_time := (-1, -1);
     h_tf := (fst (m 1%nat), fst (m 7%nat)); h_cctf := (0, 0); h_local := ((1, 0, 0), (0, 0, 0)); h_normal := (1, 0, 0) |}])].
Example C115_recorded_ex : (* the arm moves from 0 to 4: the hypotheses hold, and a contact of the moving link is recorded *)
  jac_ok arm_F arm_rotate arm_origin arm_jac 1 /\ 0 < e_lvs arm_econf /\ knows arm_econf arm_F /\ (forall m, test_ok (hit_here arm_econf m) (arm_contact m)) /\
  exists r h, calls sqrt Rceil arm_contact false KDiscrete arm_econf [([0], [4], false, false)] (fresh (fun _ => (0, 0))) = Ok [r] /\
    In h (rm_get (1, 7)%nat r) /\ moves arm_econf (link_of h false) = true.
Proof.
  assert (K : knows arm_econf arm_F) by (split; [intros q l _; split; reflexivity|intros q l []]).
  assert (TO : forall m, test_ok (hit_here arm_econf m) (arm_contact m)).
  { intros m. split; [repeat constructor; intros []|]. repeat constructor; cbn; try lra; auto. intros [|]; reflexivity. }
  split; [exact arm_jac_ok|]. split; [cbn; lra|]. split; [exact K|]. split; [exact TO|].
  rewrite (C113_calls R _ R sqrt Rceil arm_contact false KDiscrete arm_econf arm_F) by (assumption || (intros ? []) || (intros m m' E; unfold arm_contact; rewrite !E; reflexivity)).
  cbn [map outcome_of due]. destruct (C52_discrete (e_lvs arm_econf) [0] [4]) as (_ & _ & L2 & _ & _); [cbn; lra|reflexivity|].
  set (rows := states_discrete sqrt Rceil (e_lvs arm_econf) [0] [4]) in *.
  destruct rows as [|q rows]; [cbn in L2; lia|]. eexists _, _. split; [reflexivity|]. rewrite C114_discrete.
  2:{ rewrite map_length. exact L2. }
  2:{ intros m0 _. destruct (TO m0) as [A B]. split; [exact A|]. eapply Forall_impl; [|exact B]. intros p. apply Forall_impl. intros x H. apply H. }
  cbn [map length seq combine flat_map fst snd].
  cbn [arm_contact rm_get filter]. change (paireqb (1, 7)%nat (1, 7)%nat) with true. cbv iota. cbn [filter].
  match goal with |- context [keep_discrete ?c ?k ?v0 ?v1 ?n ?i ?h] => assert (KD : keep_discrete c k v0 v1 n i h = true) end.
  { unfold keep_discrete, near. cbn -[Rleb]. destruct (Rleb_spec 0 (1 + 0)); [reflexivity|lra]. }
  rewrite KD. split; [apply in_or_app; left; left; reflexivity|reflexivity].
Qed.
