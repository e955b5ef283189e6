(** Proofs about runs of TrustRegionSQPSolver: one QP, solved with tolerances. *)
From Coq Require Import List ZArith Bool Arith Reals Lra Lia.
From Verif Require Import Num NumFacts RSums Common IfoptModel IfoptProofs ExprsModel ExprsProps ModelingModel ModelingSpec KinProofs
  QpModel QpSpec QpProofs QpSlackProofs QpEvalProofs QpProps QpCaseProps OsqpModel OsqpProps SqpRunModel SqpRunSpec.
Import ListNotations.
Local Open Scope R_scope.

Definition around (e : R) (b : bnd R) (v : R) : Prop := (forall l, b_lo b = Some l -> l - e <= v) /\ (forall u, b_hi b = Some u -> v <= u + e).
Lemma around_shift e (b : bnd R) c v : around e (shift b c) v -> around e b (v + c).
Proof.
  unfold around, shift. cbn [b_lo b_hi]. change (@nsub R R_Num) with Rminus. intros [A B].
  split; [intros l Hl; rewrite Hl in A; specialize (A _ eq_refl); lra|intros u Hu; rewrite Hu in B; specialize (B _ eq_refl); lra].
Qed.
(** one row *)
Lemma row_lower_e e (r : crow) v z : 0 <= e -> typed r -> length z = length (signs r) -> Forall (fun v => - e <= v) z -> around e (r_bnd r) (v + vdot (signs r) z) ->
  bound_viol (r_bnd r) v <= rsum (fun s => s) z + 3 * e.
Proof.
  intros He (Hp & Ht) L F [A B]. destruct (bound_cases (r_bnd r) v Hp) as [(lo & El & Hlt & Hv & _)|[(hi & Eh & Hgt & Hv & _)|(I & Hv & _)]].
  - rewrite bound_viol_abs, Hv, Rabs_left by lra. specialize (A lo El). revert L A F. unfold signs.
    destruct Ht as [-> | [-> | ->]]; cbn [slack_signs]; intros L A F.
    + destruct z as [|a [|b [|? ?]]]; try discriminate. inversion F as [|? ? Fa F']; subst. inversion F' as [|? ? Fb _]; subst. rewrite !rsum_cons, rsum_nil. unfold vdot in A. cbn in A. rnum. lra.
    + destruct z as [|a [|? ?]]; try discriminate. rewrite !rsum_cons, rsum_nil. unfold vdot in A. cbn in A. rnum. lra.
    + destruct z as [|a [|? ?]]; try discriminate. inversion F as [|? ? Fa _]; subst. rewrite !rsum_cons, rsum_nil. unfold vdot in A. cbn in A. rnum. lra.
  - rewrite bound_viol_abs, Hv, Rabs_right by lra. specialize (B hi Eh). revert L B F. unfold signs.
    destruct Ht as [-> | [-> | ->]]; cbn [slack_signs]; intros L B F.
    + destruct z as [|a [|b [|? ?]]]; try discriminate. inversion F as [|? ? Fa F']; subst. inversion F' as [|? ? Fb _]; subst. rewrite !rsum_cons, rsum_nil. unfold vdot in B. cbn in B. rnum. lra.
    + destruct z as [|a [|? ?]]; try discriminate. inversion F as [|? ? Fa _]; subst. rewrite !rsum_cons, rsum_nil. unfold vdot in B. cbn in B. rnum. lra.
    + destruct z as [|a [|? ?]]; try discriminate. rewrite !rsum_cons, rsum_nil. unfold vdot in B. cbn in B. rnum. lra.
  - rewrite bound_viol_abs, Hv, Rabs_R0. revert L F. unfold signs. destruct Ht as [-> | [-> | ->]]; cbn [slack_signs]; intros L F.
    + destruct z as [|a [|b [|? ?]]]; try discriminate. inversion F as [|? ? Fa F']; subst. inversion F' as [|? ? Fb _]; subst. rewrite !rsum_cons, rsum_nil. lra.
    + destruct z as [|a [|? ?]]; try discriminate. inversion F as [|? ? Fa _]; subst. rewrite !rsum_cons, rsum_nil. lra.
    + destruct z as [|a [|? ?]]; try discriminate. inversion F as [|? ? Fa _]; subst. rewrite !rsum_cons, rsum_nil. lra.
Qed.
Lemma viol_around e (b : bnd R) v : 0 <= e -> proper b -> around e b v -> 0 <= bound_viol b v <= e.
Proof.
  intros He Hp (A & B). rewrite bound_viol_abs. split; [apply Rabs_pos|]. destruct (bound_cases b v Hp) as [(lo & El & Hu & -> & _)|[(hi & Eh & Hu & -> & _)|(_ & -> & _)]].
  - specialize (A lo El). rewrite Rabs_left by lra. lra.
  - specialize (B hi Eh). rewrite Rabs_right by lra. lra.
  - rewrite Rabs_R0. exact He.
Qed.
(** the slack values [z] of the rows [l] at [x], up to [e] *)
Fixpoint sfeas_e (e : R) (x0 x : list R) (l : list (R * crow)) (z : list R) : Prop :=
  match l with
  | [] => z = []
  | mr :: l => let ss := signs (snd mr) in
      (length ss <= length z)%nat /\ Forall (fun v => - e <= v) (firstn (length ss) z) /\
      around e (r_bnd (snd mr)) (linear x0 (snd mr) x + vdot ss (firstn (length ss) z)) /\ sfeas_e e x0 x l (skipn (length ss) z)
  end.
Lemma placed_feasible_e e x0 x l : Forall (fun mr => in_cols (length x) (snd mr)) l -> forall pre z,
  Forall2 (fun r ob => exists b, ob = Some b /\ around e b (srow_dot r (x ++ pre ++ z))) (placed (length x) (length pre) l)
     (map (fun mr => Some (shift (r_bnd (snd mr)) (rconst x0 (snd mr)))) l) -> Forall (fun v => - e <= v) z -> length z = length (slack_costs l) ->
  sfeas_e e x0 x l z.
Proof.
  induction 1 as [|mr l Hc F IH]; intros pre z.
  - cbn. intros _ _ L. destruct z; [reflexivity|discriminate].
  - cbn [placed map sfeas_e]. set (ss := signs (snd mr)).
    assert (Lc : length (slack_costs (mr :: l)) = (length ss + length (slack_costs l))%nat) by (unfold slack_costs; cbn [flat_map]; rewrite app_length, map_length; reflexivity).
    assert (D : srow_dot (thr_row (r_jac (snd mr)) ++ combine (seq (length x + length pre) (length ss)) ss) (x ++ pre ++ z) + rconst x0 (snd mr) = linear x0 (snd mr) x + vdot ss (firstn (length ss) z)).
    { rewrite srow_dot_app. rewrite (srow_dot_prefix (thr_row _)).
      - rewrite app_assoc, srow_dot_seq by (rewrite app_length; reflexivity). rewrite vdot_firstn. unfold linear, rconst. ring.
      - unfold thr_row. apply Forall_map. exact Hc. }
    rewrite (Forall_firstn_skipn (fun v => - e <= v) (length ss) z).
    intros G (Z1 & Z2) L. rewrite Lc in L. inversion G as [|r ob rs obs (b & Hb & Hin) G' Er Eo]; subst. injection Hb as <-. apply around_shift in Hin. rewrite D in Hin.
    split; [lia|]. split; [exact Z1|]. split; [exact Hin|].
    apply (IH (pre ++ firstn (length ss) z) (skipn (length ss) z)).
    + rewrite app_length, firstn_length, Nat.min_l by lia. rewrite <- app_assoc, firstn_skipn. exact G'.
    + exact Z2.
    + rewrite skipn_length. lia.
Qed.
Lemma slack_lower_e e x0 x l : 0 <= e -> Forall (fun mr => typed (snd mr) /\ 0 <= fst mr * r_w (snd mr)) l -> forall z, sfeas_e e x0 x l z ->
  penalty_sum x0 x l <= vdot (slack_costs l) z + 3 * e * rsum (fun mr => fst mr * r_w (snd mr)) l.
Proof.
  intros He. induction 1 as [|mr l (T & C) F IH].
  - intros z ->. unfold penalty_sum. rewrite !rsum_nil. unfold vdot. cbn. lra.
  - assert (E : slack_costs (mr :: l) = map (fun _ => fst mr * r_w (snd mr)) (signs (snd mr)) ++ slack_costs l) by reflexivity.
    intros z (L & Z1 & Hin & S). rewrite E. rewrite <- (firstn_skipn (length (signs (snd mr))) z) at 1. rewrite vdot_app by (rewrite map_length, firstn_length; lia).
    rewrite vdot_const by (rewrite firstn_length; lia). unfold penalty_sum. rewrite !rsum_cons. fold (penalty_sum x0 x l). specialize (IH _ S).
    assert (Q : bound_viol (r_bnd (snd mr)) (linear x0 (snd mr) x) <= rsum (fun s => s) (firstn (length (signs (snd mr))) z) + 3 * e) by (apply row_lower_e; auto; rewrite firstn_length; lia).
    apply (Rmult_le_compat_l _ _ _ C) in Q. lra.
Qed.
Lemma viol_at_e e n x0 x s l l' : 0 <= e -> length x = n -> Forall (fun mr => in_cols n (snd mr) /\ typed (snd mr)) l -> forall off, (off <= length s)%nat ->
  sfeas_e e x0 x (l ++ l') (skipn off s) ->
  0 <= rsum (fun v => v) (viol_at (full_value n x0 x s) off l) <= e * INR (length l) /\ (off + length (slack_costs l) <= length s)%nat /\ sfeas_e e x0 x l' (skipn (off + length (slack_costs l)) s).
Proof.
  intros He Lx F. induction F as [|mr l (Hc & Ht) _ IH]; intros off Lo S.
  - cbn. rewrite Nat.add_0_r, rsum_nil. split; [lra|]. auto.
  - cbn [app sfeas_e] in S. destruct S as (L1 & Hn & Hi & S). rewrite skipn_add in S. rewrite skipn_length in L1.
    assert (Lc : length (slack_costs (mr :: l)) = (length (signs (snd mr)) + length (slack_costs l))%nat) by (unfold slack_costs; cbn [flat_map]; rewrite app_length, map_length; reflexivity).
    destruct (IH (off + length (signs (snd mr)))%nat ltac:(lia) S) as (E & L2 & S'). rewrite Lc, Nat.add_assoc.
    split; [|split; [lia|exact S']]. cbn [viol_at]. cbn [length]. rewrite rsum_cons, S_INR.
    assert (V : 0 <= bound_viol (r_bnd (snd mr)) (full_value n x0 x s off (snd mr)) <= e).
    { apply viol_around; [exact He|apply Ht|]. unfold full_value. rewrite pen_value by (auto; lia). rewrite vdot_firstn in Hi. exact Hi. }
    lra.
Qed.
Lemma viols_at_e e n x0 x s l' Ls : 0 <= e -> length x = n -> Forall (fun mr => in_cols n (snd mr) /\ typed (snd mr)) (concat Ls) -> forall off, (off <= length s)%nat ->
  sfeas_e e x0 x (concat Ls ++ l') (skipn off s) -> 0 <= rsum (fun v => v) (QpEvalProofs.viols_at (full_value n x0 x s) off Ls) <= e * INR (length (concat Ls)).
Proof.
  intros He Lx. induction Ls as [|l Ls IH]; intros F off Lo S; [cbn; rewrite rsum_nil; lra|]. cbn [concat] in *. rewrite Forall_app in F. destruct F as (F1 & F2). rewrite <- app_assoc in S.
  destruct (viol_at_e e n x0 x s l (concat Ls ++ l') He Lx F1 off Lo S) as (E & L & S'). cbn [QpEvalProofs.viols_at]. rewrite rsum_cons, app_length, plus_INR. specialize (IH F2 _ L S'). lra.
Qed.

(** the identity rows *)
Lemma identity_rows_e e (v : list R) (obs : list (option (bnd R))) : length obs = length v ->
  Forall2 (fun r ob => exists b, ob = Some b /\ around e b (srow_dot r v)) (map (fun i => [(i, 1)]) (seq 0 (length v))) obs ->
  Forall2 (fun a ob => exists b, ob = Some b /\ around e b a) v obs.
Proof.
  intros L. rewrite (Forall2_nth_iff _ _ _ [] None), (Forall2_nth_iff _ v obs 0 None). rewrite map_length, seq_length.
  assert (N : forall i, (i < length v)%nat -> srow_dot (nth i (map (fun i => [(i, 1)]) (seq 0 (length v))) []) v = nth i v 0).
  { intros i Hi. rewrite nth_map_seq by exact Hi. rewrite srow_dot_R, rsum_cons, rsum_nil. cbn [fst snd]. ring. }
  intros (_ & G). split; [lia|]. intros i Hi. specialize (G i Hi). rewrite N in G by lia. exact G.
Qed.
Lemma slack_rows_e e (z : list R) : Forall2 (fun a ob => exists b, ob = Some b /\ around e b a) z (map Some (repeat {| b_lo := Some 0; b_hi := None |} (length z))) -> Forall (fun v => - e <= v) z.
Proof.
  induction z as [|a z IH]; [constructor|]. cbn [length repeat map]. intros G.
  inversion G as [|? ? ? ? H1 H2]; subst. destruct H1 as (b & [= <-] & (A & _)). constructor; [specialize (A 0 eq_refl); lra|]. apply IH. assumption.
Qed.
Definition feasible_e (e : R) (c : convex R) (z : list R) : Prop := Forall2 (fun r ob => exists b, ob = Some b /\ around e b (srow_dot r z)) (c_mat c) (all_bounds c).
Lemma feasible_split_e e p p' x z : convexified p p' -> inv p -> q_init p = true -> all_usable p -> length x = length (q_x p) -> length z = length (slack_costs (qp_rows p)) ->
  feasible_e e (q_cvx p') (x ++ z) -> Forall2 (fun a ob => exists b, ob = Some b /\ around e b a) x (c_varb (q_cvx p')) /\ sfeas_e e (q_x p) x (qp_rows p) z.
Proof.
  intros C I H U Lx Lz. pose proof (all_rows_typed p U) as T.
  assert (Lb : length (c_varb (q_cvx p')) = length (q_x p)).
  { rewrite (cv_varb _ _ C), map_length. unfold box_rows. rewrite map_length, !combine_length, (iv_bnds p I). destruct (iv_box p I H). lia. }
  unfold feasible_e, all_bounds. rewrite (cv_mat _ _ C), (cv_rowb _ _ C), (cv_slackb _ _ C).
  rewrite forall2_split by (rewrite placed_length, map_length; reflexivity). intros (F1 & F2).
  rewrite <- Lx, <- Lz, <- app_length in F2. apply identity_rows_e in F2; [|rewrite !app_length, map_length, repeat_length; lia].
  rewrite forall2_split in F2 by lia. destruct F2 as (F2 & F3). split; [exact F2|]. apply slack_rows_e in F3.
  apply (placed_feasible_e e (q_x p) x (qp_rows p)) with (pre := []).
  - rewrite Lx. eapply Forall_impl; [|exact T]; cbn; tauto.
  - rewrite Lx. exact F1.
  - exact F3.
  - exact Lz.
Qed.

(** what the library works with *)
Lemma clamped_around e (b : bnd R) v : clamp_lo (b_lo b) - e <= v <= clamp_hi (b_hi b) + e -> around e b v.
Proof.
  unfold clamp_lo, clamp_hi, around. intros (A & B). split; [intros l El; rewrite El in A; rewrite nmax_R in A|intros u Eu; rewrite Eu in B; rewrite nmin_R in B].
  - pose proof (Rmax_l l (nopp (ndec 1 30))). lra.
  - pose proof (Rmin_l u (ndec 1 30)). lra.
Qed.
Lemma clamped_inside (b : bnd R) v : inside b v -> (clamp_lo (b_lo b) <= - 10 ^ 30 \/ clamp_lo (b_lo b) <= v) /\ (10 ^ 30 <= clamp_hi (b_hi b) \/ v <= clamp_hi (b_hi b)).
Proof.
  intros (A & B). unfold clamp_lo, clamp_hi. split; [destruct (b_lo b) as [l|]|destruct (b_hi b) as [u|]]; rewrite ?nmax_R, ?nmin_R, ?Rdec30; change (@nopp R R_Num) with Ropp.
  - specialize (A l eq_refl). unfold Rmax. destruct (Rle_dec _ _); [left; lra|right; lra].
  - left; lra.
  - specialize (B u eq_refl). unfold Rmin. destruct (Rle_dec _ _); [right; lra|left; lra].
  - left; lra.
Qed.
Definition defined (c : convex R) : Prop := Forall (fun ob => exists b, ob = Some b) (all_bounds c).
Lemma conv_defined p p' : convexified p p' -> defined (q_cvx p').
Proof.
  intros C. unfold defined, all_bounds. rewrite (cv_rowb _ _ C), (cv_varb _ _ C), !Forall_app. split; [|split]; apply Forall_forall; intros ob Ho; apply in_map_iff in Ho as (? & <- & _); eauto.
Qed.
Lemma library_feasible e p z : defined (q_cvx p) ->
  Forall2 (fun r lu => fst lu - e <= srow_dot r z <= snd lu + e) (d_mat (qp_data p)) (combine (map clamp_lo (d_lo (qp_data p))) (map clamp_hi (d_hi (qp_data p)))) -> feasible_e e (q_cvx p) z.
Proof.
  unfold defined, feasible_e, qp_data. cbn [d_mat d_lo d_hi]. fold (all_bounds (q_cvx p)). generalize (all_bounds (q_cvx p)), (c_mat (q_cvx p)). intros l m W. revert m.
  induction W as [|ob l (b & ->) W IH]; intros [|r m]; cbn [map combine]; intros X; inversion X as [|? ? ? ? X1 X2]; subst; constructor; [|apply IH; assumption].
  exists b. split; [reflexivity|]. apply clamped_around. exact X1.
Qed.
Lemma feasible_library p z : defined (q_cvx p) -> qp_feasible (q_cvx p) z ->
  Forall2 (fun r lu => (fst lu <= - 10 ^ 30 \/ fst lu <= srow_dot r z) /\ (10 ^ 30 <= snd lu \/ srow_dot r z <= snd lu)) (d_mat (qp_data p)) (combine (map clamp_lo (d_lo (qp_data p))) (map clamp_hi (d_hi (qp_data p)))).
Proof.
  unfold defined, qp_feasible, qp_data. cbn [d_mat d_lo d_hi]. fold (all_bounds (q_cvx p)). generalize (all_bounds (q_cvx p)), (c_mat (q_cvx p)). intros l m W. revert m.
  induction W as [|ob l (b & ->) W IH]; intros [|r m]; cbn [map combine]; intros X; inversion X as [|? ? ? ? X1 X2]; subst; constructor; [|apply IH; assumption].
  cbn [fst snd]. destruct X1 as (b' & [= <-] & X1). apply clamped_inside. exact X1.
Qed.

(** the box *)
Lemma box_row_around e (b : bnd R) x bi v : around e b x -> 0 <= e -> around e (box_row b x bi) v -> around e b v /\ Rabs (v - x) <= bi + 2 * e.
Proof.
  intros (X1 & X2) He (A & B). unfold box_row in A, B. cbn [b_lo b_hi] in A, B. specialize (A _ eq_refl). specialize (B _ eq_refl).
  set (xi := if lt_lo x b then _ else _) in *.
  assert (Hx : x - e <= xi <= x + e).
  { unfold xi, lt_lo, gt_hi, lo_or, hi_or. destruct (b_lo b) as [l|] eqn:El.
    - specialize (X1 l eq_refl). rnum. destruct (Rltb_spec x l) as [L|L]; [lra|]. destruct (b_hi b) as [u|] eqn:Eu; [|lra]. specialize (X2 u eq_refl). destruct (Rltb_spec u x) as [G|G]; lra.
    - rnum. destruct (b_hi b) as [u|] eqn:Eu; [|lra]. specialize (X2 u eq_refl). destruct (Rltb_spec u x) as [G|G]; lra. }
  change (@nsub R R_Num) with Rminus in *. change (@nadd R R_Num) with Rplus in *.
  assert (HA : xi - bi - e <= v /\ forall l, b_lo b = Some l -> l - e <= v).
  { destruct (b_lo b) as [l|]; [|split; [lra|discriminate]]. rewrite nmax_R in A. pose proof (Rmax_l (xi - bi) l). pose proof (Rmax_r (xi - bi) l). split; [lra|]. intros ? [= <-]. lra. }
  assert (HB : v <= xi + bi + e /\ forall u, b_hi b = Some u -> v <= u + e).
  { destruct (b_hi b) as [u|]; [|split; [lra|discriminate]]. rewrite nmin_R in B. pose proof (Rmin_l (xi + bi) u). pose proof (Rmin_r (xi + bi) u). split; [lra|]. intros ? [= <-]. lra. }
  split; [split; [apply HA|apply HB]|]. unfold Rabs. destruct (Rcase_abs _); lra.
Qed.
Lemma box_row_inside (b : bnd R) x bi v : inside b v -> Rabs (v - x) <= bi -> inside (box_row b x bi) v.
Proof.
  intros (A & B) H. assert (H' : x - bi <= v <= x + bi) by (revert H; unfold Rabs; destruct (Rcase_abs _); lra). unfold box_row, inside. cbn [b_lo b_hi].
  set (xi := if lt_lo x b then _ else _). change (@nsub R R_Num) with Rminus in *. change (@nadd R R_Num) with Rplus in *.
  assert (Hx : xi - bi <= v <= xi + bi).
  { unfold xi, lt_lo, gt_hi, lo_or, hi_or. destruct (b_lo b) as [l|] eqn:El.
    - specialize (A l eq_refl). rnum. destruct (Rltb_spec x l) as [L|L]; [lra|]. destruct (b_hi b) as [u|] eqn:Eu; [|lra]. specialize (B u eq_refl). destruct (Rltb_spec u x) as [G|G]; lra.
    - rnum. destruct (b_hi b) as [u|] eqn:Eu; [|lra]. specialize (B u eq_refl). destruct (Rltb_spec u x) as [G|G]; lra. }
  split; intros ? [= <-].
  - destruct (b_lo b) as [l|]; [|lra]. rewrite nmax_R. apply Rmax_lub; [lra|apply A; reflexivity].
  - destruct (b_hi b) as [u|]; [|lra]. rewrite nmin_R. apply Rmin_glb; [lra|apply B; reflexivity].
Qed.
Lemma box_around e bs : 0 <= e -> forall x0 bi x, Forall2 (fun v b => around e b v) x0 bs ->
  Forall2 (fun a ob => exists b, ob = Some b /\ around e b a) x (map Some (box_rows bs x0 (repeat bi (length x0)))) ->
  Forall2 (fun v b => around e b v) x bs /\ rsum Rabs x <= rsum Rabs x0 + INR (length x0) * (bi + 2 * e).
Proof.
  intros He x0 bi x K. revert x. induction K as [|a b x0 bs Ka K IH]; intros x F; [cbn in F; inversion F; subst; split; [constructor|rewrite rsum_nil; cbn [length INR]; lra]|].
  cbn [length repeat box_rows combine map fst snd] in F. inversion F as [|v ob x' obs Hx F' E1 E2]; subst. destruct Hx as (b' & Eb & Hv). injection Eb as <-. destruct (IH x' F') as (F1 & F2).
  destruct (box_row_around e b a bi v Ka He Hv) as (G1 & G2). split; [constructor; assumption|]. rewrite !rsum_cons. cbn [length]. rewrite S_INR.
  assert (Rabs v <= Rabs a + Rabs (v - a)) by (replace v with (a + (v - a)) at 1 by ring; apply Rabs_triang). lra.
Qed.
Lemma box_inside bs : forall x0 bi x, length x = length x0 -> Forall2 (fun v b => inside b v) x bs -> (forall i, (i < length x0)%nat -> Rabs (nth i x 0 - nth i x0 0) <= bi) ->
  Forall2 (fun a ob => exists b, ob = Some b /\ inside b a) x (map Some (box_rows bs x0 (repeat bi (length x0)))) /\ rsum Rabs x <= rsum Rabs x0 + INR (length x0) * bi.
Proof.
  intros x0 bi x L F. revert x0 L. induction F as [|v b x bs Hv F IH]; intros [|a x0] L D; try discriminate; [split; [constructor|rewrite rsum_nil; cbn [length INR]; lra]|]. injection L as L.
  destruct (IH x0 L) as (F1 & F2); [intros i Hi; apply (D (S i)); cbn; lia|]. specialize (D 0%nat ltac:(cbn; lia)). cbn [nth] in D.
  cbn [length repeat box_rows combine map fst snd]. split; [constructor; [eexists; split; [reflexivity|apply box_row_inside; assumption]|exact F1]|]. rewrite !rsum_cons, S_INR.
  assert (Rabs v <= Rabs a + Rabs (v - a)) by (replace v with (a + (v - a)) at 1 by ring; apply Rabs_triang). lra.
Qed.

(** sums over the rows *)
Lemma merit_rows_sum (f : crow -> R) x ts : Forall (fun t => nonempty x t = true) ts -> forall ms k, length ms = (k + length ts)%nat ->
  rsum (fun mr => fst mr * f (snd mr)) (merit_rows x ms k ts) = rsum (fun mt => fst mt * rsum f (term_rows x (snd mt))) (combine (skipn k ms) ts).
Proof.
  induction 1 as [|t ts Ht _ IH]; intros ms k L; [destruct (skipn k ms); reflexivity|]. cbn [merit_rows]. rewrite Ht, rsum_app, rsum_map, (IH ms (S k)) by (cbn in L; lia).
  assert (E : skipn k ms = nth k ms 0 :: skipn (S k) ms).
  { clear -L. revert k L. induction ms as [|m ms IHm]; intros k L; [cbn in L; lia|]. destruct k; [reflexivity|]. cbn [skipn nth]. rewrite (IHm k) by (cbn in L |- *; lia). reflexivity. }
  rewrite E. cbn [combine]. rewrite rsum_cons. cbn [fst snd]. f_equal. rewrite <- rsum_scal. reflexivity.
Qed.
Lemma one_rows_sum (f : crow -> R) x ts : rsum (fun mr => fst mr * f (snd mr)) (one_rows x ts) = rsum (fun t => rsum f (term_rows x t)) ts.
Proof. unfold one_rows. rewrite rsum_flat_map. apply rsum_ext. intros t _. rewrite rsum_map. apply rsum_ext. intros r _. cbn [fst snd]. ring. Qed.
Lemma qp_rows_sum (f : crow -> R) p : inv p -> q_init p = true -> Forall (fun t => nonempty (q_x p) t = true) (merits (q_src p)) ->
  rsum (fun mr => fst mr * f (snd mr)) (qp_rows p) = rsum (fun t => rsum f (term_rows (q_x p) t)) (penalties (q_src p)) +
    rsum (fun mt => fst mt * rsum f (term_rows (q_x p) (snd mt))) (combine (q_merit p) (merits (q_src p))).
Proof.
  intros I H N. unfold qp_rows, penalties. rewrite !rsum_app, !one_rows_sum, (merit_rows_sum f _ _ N) by (rewrite (iv_merit p I H); reflexivity). cbn [skipn]. ring.
Qed.

(** ** One QP *)
Lemma data_conv p p' : inv p -> q_init p = true -> convexified p p' ->
  data_ok (qp_data p') /\ d_cols (qp_data p') = (length (q_x p) + length (slack_costs (qp_rows p)))%nat /\
  length (d_mat (qp_data p')) = (length (qp_rows p) + length (q_x p) + length (slack_costs (qp_rows p)))%nat.
Proof.
  intros I H C.
  assert (Lb : length (box_rows (q_bnds p) (q_x p) (q_box p)) = length (q_x p)).
  { unfold box_rows. rewrite map_length, !combine_length, (iv_bnds p I). destruct (iv_box p I H). lia. }
  pose proof (cv_obj _ _ C) as (q & (_ & _ & _ & Lq & Lh & _) & _ & Eg & Eh & _).
  assert (Lg : length (c_grad (q_cvx p')) = (length (q_x p) + length (slack_costs (qp_rows p)))%nat) by (rewrite Eg, app_length, Lq; reflexivity).
  assert (Lhh : length (c_hess (q_cvx p')) = length (q_x p)) by (rewrite Eh, map_length; exact Lh).
  assert (Lm : length (c_mat (q_cvx p')) = (length (qp_rows p) + length (q_x p) + length (slack_costs (qp_rows p)))%nat).
  { rewrite (cv_mat _ _ C), app_length, placed_length, map_length, seq_length. lia. }
  unfold data_ok, qp_data. cbn [d_hess d_grad d_mat d_cols d_lo d_hi].
  rewrite !app_length, !map_length, !app_length, !map_length, (cv_rowb _ _ C), (cv_varb _ _ C), (cv_slackb _ _ C), !map_length, !repeat_length, Lg, Lhh, Lm, Lb. repeat split; lia.
Qed.
Definition merit_sum (mu costs viols : list R) : R := rsum (fun v => v) costs + rsum (fun ab => fst ab * snd ab) (combine mu viols).

(** conditions on the problem at the point of convexification *)
Record near_ok (e b : R) (p : qp R) : Prop := {
  no_inv : inv p; no_init : q_init p = true; no_use : all_usable p; no_obj : nonneg_objectives p;
  no_rows : objectives (q_src p) = [] \/ (0 < rows_at (q_x p) (objectives (q_src p)))%nat;
  no_pen : Forall (fun t => Forall (fun r => r_w r = 0 \/ / 10 ^ 7 <= r_w r) (term_rows (q_x p) t)) (penalties (q_src p));
  no_mer : Forall (fun t => nonempty (q_x p) t = true /\ Forall (fun r => 1 <= r_w r) (term_rows (q_x p) t)) (merits (q_src p));
  no_mu : Forall (fun m => / 10 ^ 7 <= m) (q_merit p);
  no_box : q_box p = repeat b (length (q_x p));
  no_keep : Forall2 (fun v b => around e b v) (q_x p) (q_bnds p) }.

Lemma tiny_pos : 0 < / 10 ^ 7.
Proof. apply Rinv_0_lt_compat, pow_lt. lra. Qed.
Lemma near_weights e b p : near_ok e b p -> Forall (fun mr => fst mr * r_w (snd mr) = 0 \/ / 10 ^ 7 <= fst mr * r_w (snd mr)) (qp_rows p).
Proof.
  intros O. pose proof tiny_pos as Tp. pose proof (no_pen _ _ _ O) as P. unfold penalties in P. rewrite Forall_app in P. destruct P as (P1 & P2).
  pose proof (no_mer _ _ _ O) as P3. pose proof (no_mu _ _ _ O) as M. unfold qp_rows. rewrite !Forall_app. split; [|split].
  - apply one_rows_forall. intros t r Ht Hr. cbn [fst snd]. rewrite Forall_forall in P1. specialize (P1 t Ht). rewrite Forall_forall in P1. rewrite Rmult_1_l. auto.
  - apply one_rows_forall. intros t r Ht Hr. cbn [fst snd]. rewrite Forall_forall in P2. specialize (P2 t Ht). rewrite Forall_forall in P2. rewrite Rmult_1_l. auto.
  - assert (A : Forall (fun mr => 1 <= r_w (snd mr)) (merit_rows (q_x p) (q_merit p) 0 (merits (q_src p)))).
    { apply merit_rows_forall. intros m t r Ht Hr. cbn [snd]. rewrite Forall_forall in P3. destruct (P3 t Ht) as (_ & Q). rewrite Forall_forall in Q. auto. }
    assert (B : Forall (fun mr => fst mr = 0 \/ / 10 ^ 7 <= fst mr) (merit_rows (q_x p) (q_merit p) 0 (merits (q_src p)))).
    { apply (merit_rows_coeff (fun m => m = 0 \/ / 10 ^ 7 <= m)); [now left|]. eapply Forall_impl; [|exact M]. cbn. auto. }
    rewrite Forall_forall in *. intros mr Hm. specialize (A mr Hm). specialize (B mr Hm). destruct B as [-> | B]; [left; ring|right]. nra.
Qed.
Lemma slack_costs_forall (P : R -> Prop) l : Forall (fun mr => P (fst mr * r_w (snd mr))) l -> Forall P (slack_costs l).
Proof.
  intros F. unfold slack_costs. apply Forall_forall. intros v Hv. apply in_flat_map in Hv as (mr & Hm & Hv). apply in_map_iff in Hv as (s & <- & _). rewrite Forall_forall in F. apply F, Hm.
Qed.
(** the objective that OSQP works with *)
Lemma library_objective e b p p' : near_ok e b p -> convexified p p' -> exists k, forall x s, length x = length (q_x p) -> (length x + length s)%nat = d_cols (qp_data p') ->
  Rabs (osqp_objective (d_cols (qp_data p')) (twice (d_hess (qp_data p'))) (map clean (d_grad (qp_data p'))) (x ++ s) + k -
        (rsum (gn_cost (q_x p) x) (objectives (q_src p)) + vdot (slack_costs (qp_rows p)) s)) <= / 10 ^ 7 * ((rsum Rabs x) ^ 2 + rsum Rabs x).
Proof.
  intros O C. destruct (gauss_newton_conv p p' C (no_obj _ _ _ O)) as (k & G). exists k. intros x s Lx Ls. specialize (G x Lx).
  pose proof (cv_obj _ _ C) as (q & (_ & _ & _ & Lq & _) & _ & Eg & _). destruct (problem_conv p p' C) as (Q & _). specialize (Q x s Lx Ls).
  assert (Ls' : length s = length (slack_costs (qp_rows p))) by (cbn [qp_data d_cols] in Ls; rewrite Eg, app_length, Lq in Ls; lia).
  unfold osqp_objective, twice. rewrite qform_twice. unfold own_objective in Q.
  assert (E : vdot (map clean (d_grad (qp_data p'))) (x ++ s) - vdot (d_grad (qp_data p')) (x ++ s) = vdot (map clean (qe_obj_lin q)) x - vdot (qe_obj_lin q) x).
  { assert (Ec : map clean (slack_costs (qp_rows p)) = slack_costs (qp_rows p)).
    { apply (clean_exact (slack_costs (qp_rows p))). apply slack_costs_forall. eapply Forall_impl; [|exact (near_weights _ _ _ O)]. cbn. intros mr [Z|Z]; [now left|right]. rewrite Rabs_right; [exact Z|]. pose proof tiny_pos. lra. }
    cbn [qp_data d_grad]. rewrite Eg, map_app, Ec, !vdot_app by (rewrite ?map_length; congruence). ring. }
  assert (B : Rabs (vdot (map clean (qe_obj_lin q)) x - vdot (qe_obj_lin q) x) <= / 10 ^ 7 * rsum Rabs x) by (apply clean_close; congruence).
  rewrite Eg in Q. rewrite skipn_exact in Q by congruence. rewrite <- E in B.
  match goal with |- Rabs ?u <= _ => replace u with ((objective_value p' x + k - rsum (gn_cost (q_x p) x) (objectives (q_src p))) + (vdot (map clean (d_grad (qp_data p'))) (x ++ s) - vdot (d_grad (qp_data p')) (x ++ s))) end.
  - eapply Rle_trans; [apply Rabs_triang|]. lra.
  - assert (Q' : qform (d_cols (qp_data p')) (d_hess (qp_data p')) (x ++ s) = objective_value p' x + vdot (slack_costs (qp_rows p)) s - vdot (d_grad (qp_data p')) (x ++ s)) by lra. rewrite Q'. field.
Qed.

Lemma lin_le_penalty x0 x t : Forall (fun r => 1 <= r_w r) (term_rows x0 t) -> lin_violation x0 x t <= set_penalty x0 x t.
Proof.
  intros F. unfold lin_violation, set_penalty. apply rsum_le. intros r Hr. rewrite Forall_forall in F. specialize (F r Hr). rewrite bound_viol_abs. pose proof (Rabs_pos (bound_error (r_bnd r) (linear x0 r x))). nra.
Qed.
Lemma combine_viols (mu : list R) (f : term R -> R) ts : rsum (fun ab => fst ab * snd ab) (combine mu (map f ts)) = rsum (fun mt => fst mt * f (snd mt)) (combine mu ts).
Proof. revert mu. induction ts as [|t ts IH]; intros [|m mu]; cbn [map combine]; auto. rewrite !rsum_cons, IH. reflexivity. Qed.
(** the slack values that are best for [y] *)
Lemma best_slack e b p p' y : near_ok e b p -> convexified p p' -> length y = length (q_x p) -> in_box (q_cvx p') y ->
  exists s, length s = length (slack_costs (qp_rows p)) /\ qp_feasible (q_cvx p') (y ++ s) /\ vdot (slack_costs (qp_rows p)) s = penalty_sum (q_x p) y (qp_rows p).
Proof.
  intros O C Ly B. pose proof (no_inv _ _ _ O) as I. pose proof (no_init _ _ _ O) as H. pose proof (no_use _ _ _ O) as U.
  assert (K : Forall (fun mr => typed (snd mr) /\ 0 <= fst mr * r_w (snd mr)) (qp_rows p)).
  { pose proof (all_rows_typed p U) as T. pose proof (near_weights _ _ _ O) as N. pose proof tiny_pos. rewrite Forall_forall in *. intros mr Hm. split; [apply T, Hm|]. destruct (N mr Hm) as [-> | N']; lra. }
  destruct (slack_minimum (q_x p) y (qp_rows p) K) as (_ & z0 & S2 & S3).
  assert (L0 : length z0 = length (slack_costs (qp_rows p))).
  { pose proof (placed_feasible (q_x p) y (qp_rows p)) as PF. rewrite Ly in PF.
    assert (Fc : Forall (fun mr => in_cols (length (q_x p)) (snd mr)) (qp_rows p)) by (eapply Forall_impl; [|exact (all_rows_typed p U)]; cbn; tauto).
    apply (PF Fc [] z0) in S2. tauto. }
  exists z0. split; [exact L0|]. split; [|exact S3]. apply (feasible_split p p' y z0 C I H U Ly L0). auto.
Qed.
Lemma penalty_sum_sets e b p y : near_ok e b p -> penalty_sum (q_x p) y (qp_rows p) = rsum (set_penalty (q_x p) y) (penalties (q_src p)) +
  rsum (fun mt => fst mt * set_penalty (q_x p) y (snd mt)) (combine (q_merit p) (merits (q_src p))).
Proof.
  intros O. unfold penalty_sum. rewrite (rsum_ext _ (fun mr => fst mr * (r_w (snd mr) * bound_viol (r_bnd (snd mr)) (linear (q_x p) (snd mr) y)))) by (intros; ring).
  apply (qp_rows_sum (fun r => r_w r * bound_viol (r_bnd r) (linear (q_x p) r y)) p (no_inv _ _ _ O) (no_init _ _ _ O)). eapply Forall_impl; [|exact (no_mer _ _ _ O)]. cbn. tauto.
Qed.
Lemma set_penalty_nonneg x0 x t : Forall (fun r => 0 <= r_w r) (term_rows x0 t) -> 0 <= set_penalty x0 x t.
Proof. intros F. apply rsum_nonneg. intros r Hr. rewrite Forall_forall in F. specialize (F r Hr). rewrite bound_viol_abs. pose proof (Rabs_pos (bound_error (r_bnd r) (linear x0 r x))). nra. Qed.

(** a solution of the library: within the bounds up to the tolerance, and no point of the region is better by more than the slop *)
Lemma near_solution e delta b p p' z : near_ok e b p -> convexified p p' -> 0 <= e -> length z = d_cols (qp_data p') ->
  Forall2 (fun r lu => fst lu - e <= srow_dot r z <= snd lu + e) (d_mat (qp_data p')) (combine (map clamp_lo (d_lo (qp_data p'))) (map clamp_hi (d_hi (qp_data p')))) ->
  (forall y, length y = d_cols (qp_data p') ->
    Forall2 (fun r lu => (fst lu <= - 10 ^ 30 \/ fst lu <= srow_dot r y) /\ (10 ^ 30 <= snd lu \/ srow_dot r y <= snd lu)) (d_mat (qp_data p')) (combine (map clamp_lo (d_lo (qp_data p'))) (map clamp_hi (d_hi (qp_data p')))) ->
    osqp_objective (d_cols (qp_data p')) (twice (d_hess (qp_data p'))) (map clean (d_grad (qp_data p'))) z <=
    osqp_objective (d_cols (qp_data p')) (twice (d_hess (qp_data p'))) (map clean (d_grad (qp_data p'))) y + delta) ->
  let x := firstn (length (q_x p)) z in
  Forall2 (fun v b => around e b v) x (q_bnds p) /\
  exists costs viols, eval_convex_costs p' z = Val costs /\ eval_convex_violations p' z = Val viols /\
    forall y, region p (q_x p) b y -> merit_sum (q_merit p) costs viols <= convex_merit p (q_merit p) (q_x p) y + slop e delta p (q_merit p) (q_x p) b.
Proof.
  intros O C He Lz F1 F2 x. pose proof (no_inv _ _ _ O) as I. pose proof (no_init _ _ _ O) as H. pose proof (no_use _ _ _ O) as U. pose proof (all_rows_typed p U) as T. pose proof tiny_pos as Tp.
  destruct (data_conv p p' I H C) as (_ & Dc & _). set (s := skipn (length (q_x p)) z).
  assert (Ez : z = x ++ s) by (symmetry; apply firstn_skipn). assert (Lx : length x = length (q_x p)) by (unfold x; rewrite firstn_length; lia).
  assert (Ls : length s = length (slack_costs (qp_rows p))) by (unfold s; rewrite skipn_length; lia). clearbody x s. subst z.
  apply (library_feasible e p' (x ++ s) (conv_defined _ _ C)) in F1. apply (feasible_split_e e p p' x s C I H U Lx Ls) in F1 as (G1 & G2).
  rewrite (cv_varb _ _ C), (no_box _ _ _ O) in G1. destruct (box_around e (q_bnds p) He (q_x p) b x (no_keep _ _ _ O) G1) as (G3 & G4). split; [exact G3|].
  pose proof (eval_violations_conv p p' I H U C x s Lx) as Ev. pose proof (cv_obj _ _ C) as (q & (_ & _ & _ & Lq & _) & _ & Eg & _).
  destruct (eval_costs_any p p' I H U C (no_obj _ _ _ O) (no_rows _ _ _ O) x s Lx) as (pen & Ec & _ & _ & Ep); [exact Lz|].
  eexists _, _. split; [exact Ec|]. split; [exact Ev|]. intros y (R1 & Ly & R3).
  (* the penalties at the solution *)
  set (Ls0 := one_chunks (q_x p) (hinges (q_src p)) ++ one_chunks (q_x p) (absolutes (q_src p))) in *.
  assert (Ec0 : concat Ls0 = one_rows (q_x p) (hinges (q_src p)) ++ one_rows (q_x p) (absolutes (q_src p))) by (unfold Ls0; rewrite concat_app, !one_chunks_concat; reflexivity).
  assert (Er : qp_rows p = concat Ls0 ++ merit_rows (q_x p) (q_merit p) 0 (merits (q_src p))) by (rewrite Ec0, <- app_assoc; reflexivity).
  assert (Hp : rsum (fun v => v) pen <= e * INR (rows_at (q_x p) (penalties (q_src p)))).
  { rewrite Ep. pose proof (viols_at_e e (length (q_x p)) (q_x p) x s (merit_rows (q_x p) (q_merit p) 0 (merits (q_src p))) Ls0 He Lx) as V.
    rewrite Er in T, G2. rewrite Forall_app in T. specialize (V (proj1 T) 0%nat ltac:(lia) G2). rewrite Ec0, (pen_rows_length p U) in V.
    replace (rows_at (q_x p) (penalties (q_src p))) with (rows_at (q_x p) (pens (q_src p))); [apply V|]. unfold pens, penalties, hinges, absolutes. rewrite <- app_assoc. reflexivity. }
  (* the violations at the solution *)
  assert (Hv : rsum (fun mt => fst mt * lin_violation (q_x p) x (snd mt)) (combine (q_merit p) (merits (q_src p))) <= penalty_sum (q_x p) x (qp_rows p)).
  { rewrite (penalty_sum_sets e b p x O).
    assert (A1 : 0 <= rsum (set_penalty (q_x p) x) (penalties (q_src p))).
    { apply rsum_nonneg. intros t Ht. apply set_penalty_nonneg. pose proof (no_pen _ _ _ O) as P. rewrite Forall_forall in P. specialize (P t Ht). eapply Forall_impl; [|exact P]. cbn. intros r [-> | Hr]; lra. }
    assert (A2 : rsum (fun mt => fst mt * lin_violation (q_x p) x (snd mt)) (combine (q_merit p) (merits (q_src p))) <= rsum (fun mt => fst mt * set_penalty (q_x p) x (snd mt)) (combine (q_merit p) (merits (q_src p)))).
    { apply rsum_le. intros (m, t) Hm. cbn [fst snd]. pose proof (in_combine_l _ _ _ _ Hm) as Hl. apply in_combine_r in Hm. pose proof (no_mu _ _ _ O) as M. rewrite Forall_forall in M. specialize (M m Hl).
      apply Rmult_le_compat_l; [lra|]. apply lin_le_penalty. pose proof (no_mer _ _ _ O) as P. rewrite Forall_forall in P. apply (P t Hm). }
    lra. }
  assert (K : Forall (fun mr => typed (snd mr) /\ 0 <= fst mr * r_w (snd mr)) (qp_rows p)).
  { pose proof (near_weights _ _ _ O) as N. rewrite Forall_forall in *. intros mr Hm. split; [apply T, Hm|]. destruct (N mr Hm) as [-> | N']; lra. }
  pose proof (slack_lower_e e (q_x p) x (qp_rows p) He K s G2) as Hs.
  rewrite (qp_rows_sum r_w p I H) in Hs by (eapply Forall_impl; [|exact (no_mer _ _ _ O)]; cbn; tauto).
  (* the competitor *)
  destruct (box_inside (q_bnds p) (q_x p) b y Ly R1 R3) as (B1 & B2).
  destruct (best_slack e b p p' y O C Ly) as (sy & Lsy & Fy & Vy). { unfold in_box. rewrite (cv_varb _ _ C), (no_box _ _ _ O). exact B1. }
  rewrite (penalty_sum_sets e b p y O) in Vy.
  specialize (F2 (y ++ sy) ltac:(rewrite app_length; lia) (feasible_library p' (y ++ sy) (conv_defined _ _ C) Fy)).
  destruct (library_objective e b p p' O C) as (k & Q). pose proof (Q x s Lx ltac:(lia)) as Qx. pose proof (Q y sy Ly ltac:(lia)) as Qy.
  unfold slop. cbv zeta. set (D := rsum Rabs (q_x p) + INR (length (q_x p)) * (b + 2 * e)) in *.
  assert (By : rsum Rabs y <= D) by (unfold D; pose proof (pos_INR (length (q_x p))); nra).
  assert (Nx : 0 <= rsum Rabs x) by (apply rsum_nonneg; intros; apply Rabs_pos). assert (Ny : 0 <= rsum Rabs y) by (apply rsum_nonneg; intros; apply Rabs_pos).
  assert (Sx : / 10 ^ 7 * ((rsum Rabs x) ^ 2 + rsum Rabs x) <= / 10 ^ 7 * (D ^ 2 + D)) by (apply Rmult_le_compat_l; [lra|nra]).
  assert (Sy : / 10 ^ 7 * ((rsum Rabs y) ^ 2 + rsum Rabs y) <= / 10 ^ 7 * (D ^ 2 + D)) by (apply Rmult_le_compat_l; [lra|nra]).
  assert (Ax : forall u v : R, Rabs u <= v -> - v <= u <= v) by (intros u v; unfold Rabs; destruct (Rcase_abs u); lra). apply Ax in Qx, Qy.
  unfold merit_sum, convex_merit. rewrite rsum_app, rsum_map, combine_viols. unfold coeff_sum. change (rsum (fun a : term R => gn_cost (q_x p) x a) (objectives (q_src p))) with (rsum (gn_cost (q_x p) x) (objectives (q_src p))). lra.
Qed.

(** the bounds alone *)
Lemma box_row_keeps e (b : bnd R) x bi v : around e (box_row b x bi) v -> around e b v.
Proof.
  intros (A & B). unfold box_row in A, B. cbn [b_lo b_hi] in A, B. specialize (A _ eq_refl). specialize (B _ eq_refl). set (xi := if lt_lo x b then _ else _) in *.
  change (@nsub R R_Num) with Rminus in *. change (@nadd R R_Num) with Rplus in *. split.
  - intros l El. rewrite El in A. rewrite nmax_R in A. pose proof (Rmax_r (xi - bi) l). lra.
  - intros u Eu. rewrite Eu in B. rewrite nmin_R in B. pose proof (Rmin_r (xi + bi) u). lra.
Qed.
Lemma box_keeps e bs : forall x0 box x, length x0 = length bs -> length box = length bs ->
  Forall2 (fun a ob => exists b, ob = Some b /\ around e b a) x (map Some (box_rows bs x0 box)) -> Forall2 (fun v b => around e b v) x bs.
Proof.
  induction bs as [|b bs IH]; intros [|a x0] [|bi box] x L1 L2 F; try discriminate; [cbn in F; inversion F; constructor|].
  cbn [box_rows combine map fst snd] in F. inversion F as [|v ob x' obs Hx F' E1 E2]; subst. destruct Hx as (b' & Eb & Hv). injection Eb as <-.
  constructor; [exact (box_row_keeps _ _ _ _ _ Hv)|]. apply (IH x0 box); [now injection L1|now injection L2|exact F'].
Qed.
Lemma near_bounds e p p' z : inv p -> q_init p = true -> all_usable p -> convexified p p' -> length z = d_cols (qp_data p') ->
  Forall2 (fun r lu => fst lu - e <= srow_dot r z <= snd lu + e) (d_mat (qp_data p')) (combine (map clamp_lo (d_lo (qp_data p'))) (map clamp_hi (d_hi (qp_data p')))) ->
  Forall2 (fun v b => around e b v) (firstn (length (q_x p)) z) (q_bnds p).
Proof.
  intros I H U C Lz F1. destruct (data_conv p p' I H C) as (_ & Dc & _). set (x := firstn (length (q_x p)) z). set (s := skipn (length (q_x p)) z).
  assert (Ez : z = x ++ s) by (symmetry; apply firstn_skipn). assert (Lx : length x = length (q_x p)) by (unfold x; rewrite firstn_length; lia).
  assert (Ls : length s = length (slack_costs (qp_rows p))) by (unfold s; rewrite skipn_length; lia). clearbody x s. subst z.
  apply (library_feasible e p' (x ++ s) (conv_defined _ _ C)) in F1. apply (feasible_split_e e p p' x s C I H U Lx Ls) in F1 as (G1 & _).
  rewrite (cv_varb _ _ C) in G1. apply (box_keeps e _ (q_x p) (q_box p)); [symmetry; apply I|rewrite (iv_box p I H); symmetry; apply I|exact G1].
Qed.
