(** * Slack variables of TrajOptQPProblem: minimisation lemmas *)
From Coq Require Import List ZArith Bool Arith Reals Lra Lia.
From Verif Require Import Num NumFacts RSums IfoptModel IfoptProofs ExprsModel ExprsProps ModelingSpec QpModel QpSpec QpProofs.
Import ListNotations.
Local Open Scope R_scope.

Lemma srow_dot_app (a b : srow R) x : srow_dot (a ++ b) x = srow_dot a x + srow_dot b x.
Proof. rewrite !srow_dot_R. apply rsum_app. Qed.
Lemma srow_dot_prefix (r : srow R) x z : Forall (fun p => (fst p < length x)%nat) r -> srow_dot r (x ++ z) = srow_dot r x.
Proof. intros F. rewrite !srow_dot_R. apply rsum_ext. intros p Hp. rewrite Forall_forall in F. rewrite app_nth1 by (apply F, Hp). reflexivity. Qed.
Lemma srow_dot_seq (ss : list R) k y z : length y = k -> srow_dot (combine (seq k (length ss)) ss) (y ++ z) = vdot ss z.
Proof.
  revert k y z. induction ss as [|s ss IH]; intros k y z L; [reflexivity|]. cbn [length seq combine]. rewrite srow_dot_R, rsum_cons, <- srow_dot_R. cbn [fst snd].
  rewrite app_nth2, L, Nat.sub_diag by lia. destruct z as [|a z].
  - cbn [nth]. rewrite app_nil_r. unfold vdot. cbn [combine map]. rewrite vsum_R. cbn. rewrite srow_dot_R.
    rewrite (rsum_ext _ (fun _ => 0)); [rewrite rsum_zero; ring|]. intros p Hp. destruct p as (i, v). apply in_combine_l in Hp. apply in_seq in Hp. cbn [fst snd]. rewrite nth_overflow by lia. ring.
  - cbn [nth]. replace (y ++ a :: z) with ((y ++ [a]) ++ z) by (rewrite <- app_assoc; reflexivity). rewrite IH by (rewrite app_length; cbn; lia).
    unfold vdot. cbn [combine map fst snd]. rewrite !vsum_R. rnum. reflexivity.
Qed.
Lemma vdot_firstn (ss z : list R) : vdot ss (firstn (length ss) z) = vdot ss z.
Proof. unfold vdot. f_equal. f_equal. revert z. induction ss as [|s ss IH]; intros [|a z]; cbn; auto. f_equal. apply IH. Qed.
Lemma Forall_firstn_skipn {A} (P : A -> Prop) k l : Forall P l <-> Forall P (firstn k l) /\ Forall P (skipn k l).
Proof. rewrite <- (firstn_skipn k l) at 1. apply Forall_app. Qed.

Lemma inside_shift (b : bnd R) c v : inside (shift b c) v <-> inside b (v + c).
Proof.
  unfold inside, shift. cbn [b_lo b_hi]. change (@nsub R R_Num) with Rminus. split; intros [A B].
  - split; [intros l Hl; rewrite Hl in A; specialize (A _ eq_refl); lra|intros u Hu; rewrite Hu in B; specialize (B _ eq_refl); lra].
  - split; [intros l Hl; destruct (b_lo b); [|discriminate]; injection Hl as <-; specialize (A _ eq_refl); lra|
            intros u Hu; destruct (b_hi b); [|discriminate]; injection Hu as <-; specialize (B _ eq_refl); lra].
Qed.

(** [z] are the slack values of the rows [l], at the point [x] *)
Fixpoint sfeas (x0 x : list R) (l : list (R * crow)) (z : list R) : Prop :=
  match l with
  | [] => z = []
  | mr :: l => let ss := signs (snd mr) in
      (length ss <= length z)%nat /\ Forall (fun v => 0 <= v) (firstn (length ss) z) /\
      inside (r_bnd (snd mr)) (linear x0 (snd mr) x + vdot ss (firstn (length ss) z)) /\ sfeas x0 x l (skipn (length ss) z)
  end.
Definition in_cols (n : nat) (r : crow) : Prop := Forall (fun p => (fst p < n)%nat) (r_jac r).

Lemma placed_feasible x0 x l : Forall (fun mr => in_cols (length x) (snd mr)) l -> forall pre z,
  (Forall2 (fun r ob => exists b, ob = Some b /\ inside b (srow_dot r (x ++ pre ++ z))) (placed (length x) (length pre) l)
     (map (fun mr => Some (shift (r_bnd (snd mr)) (rconst x0 (snd mr)))) l) /\ Forall (fun v => 0 <= v) z /\ length z = length (slack_costs l))
  <-> sfeas x0 x l z.
Proof.
  induction 1 as [|mr l Hc F IH]; intros pre z.
  - cbn. split; [intros (_ & _ & L); destruct z; [reflexivity|discriminate]|intros ->; repeat split; constructor].
  - cbn [placed map sfeas]. set (ss := signs (snd mr)).
    assert (Lc : length (slack_costs (mr :: l)) = (length ss + length (slack_costs l))%nat) by (unfold slack_costs; cbn [flat_map]; rewrite app_length, map_length; reflexivity).
    assert (D : srow_dot (thr_row (r_jac (snd mr)) ++ combine (seq (length x + length pre) (length ss)) ss) (x ++ pre ++ z) + rconst x0 (snd mr) = linear x0 (snd mr) x + vdot ss (firstn (length ss) z)).
    { rewrite srow_dot_app. rewrite (srow_dot_prefix (thr_row _)).
      - rewrite app_assoc, srow_dot_seq by (rewrite app_length; reflexivity). rewrite vdot_firstn. unfold linear, rconst. ring.
      - unfold thr_row. apply Forall_map. exact Hc. }
    assert (Z : length ss = length (firstn (length ss) z) -> x ++ pre ++ z = x ++ (pre ++ firstn (length ss) z) ++ skipn (length ss) z).
    { intros _. rewrite <- app_assoc, firstn_skipn. reflexivity. }
    rewrite (Forall_firstn_skipn (fun v => 0 <= v) (length ss) z).
    split.
    + intros (G & (Z1 & Z2) & L). rewrite Lc in L. inversion G as [|r ob rs obs (b & Hb & Hin) G' Er Eo]; subst. injection Hb as <-. apply inside_shift in Hin. rewrite D in Hin.
      split; [lia|]. split; [exact Z1|]. split; [exact Hin|].
      apply (IH (pre ++ firstn (length ss) z) (skipn (length ss) z)). rewrite app_length, firstn_length, Nat.min_l by lia.
      rewrite <- Z by (rewrite firstn_length; lia). split; [exact G'|]. split; [exact Z2|]. rewrite skipn_length. lia.
    + intros (L & Z1 & Hin & S). apply (IH (pre ++ firstn (length ss) z) (skipn (length ss) z)) in S. rewrite app_length, firstn_length, Nat.min_l in S by lia.
      rewrite <- Z in S by (rewrite firstn_length; lia). destruct S as (G & Z2 & L2). rewrite skipn_length in L2.
      split; [|split; [auto|lia]]. constructor; [|exact G]. eexists. split; [reflexivity|]. apply inside_shift. rewrite D. exact Hin.
Qed.

(** one row *)
Definition typed (r : crow) : Prop := proper (r_bnd r) /\ (type_of (r_bnd r) = Equality \/ type_of (r_bnd r) = LowerBound \/ type_of (r_bnd r) = UpperBound).
Lemma row_lower (r : crow) v z : typed r -> length z = length (signs r) -> Forall (fun v => 0 <= v) z -> inside (r_bnd r) (v + vdot (signs r) z) ->
  bound_viol (r_bnd r) v <= rsum (fun s => s) z.
Proof.
  intros (Hp & Ht) L F [A B]. destruct (bound_cases (r_bnd r) v Hp) as [(lo & El & Hlt & Hv & _)|[(hi & Eh & Hgt & Hv & _)|(I & Hv & _)]].
  - rewrite bound_viol_abs, Hv, Rabs_left by lra. specialize (A lo El). revert L A F. unfold signs.
    destruct Ht as [-> | [-> | ->]]; cbn [slack_signs]; intros L A F.
    + destruct z as [|a [|b [|? ?]]]; try discriminate. inversion F as [|? ? Fa F']; subst. inversion F' as [|? ? Fb _]; subst. rewrite !rsum_cons, rsum_nil. unfold vdot in A. cbn in A. rnum. lra.
    + destruct z as [|a [|? ?]]; try discriminate. rewrite !rsum_cons, rsum_nil. unfold vdot in A. cbn in A. rnum. lra.
    + destruct z as [|a [|? ?]]; try discriminate. inversion F as [|? ? Fa _]; subst. rewrite !rsum_cons, rsum_nil. unfold vdot in A. cbn in A. rnum. lra.
  - rewrite bound_viol_abs, Hv, Rabs_right by lra. specialize (B hi Eh). revert L B F. unfold signs.
    destruct Ht as [-> | [-> | ->]]; cbn [slack_signs]; intros L B F.
    + destruct z as [|a [|b [|? ?]]]; try discriminate. inversion F as [|? ? Fa F']; subst. inversion F' as [|? ? Fb _]; subst. rewrite !rsum_cons, rsum_nil. unfold vdot in B. cbn in B. rnum. lra.
    + destruct z as [|a [|? ?]]; try discriminate. inversion F as [|? ? Fa _]; subst. rewrite !rsum_cons, rsum_nil. unfold vdot in B. cbn in B. rnum. lra.
    + destruct z as [|a [|? ?]]; try discriminate. rewrite !rsum_cons, rsum_nil. unfold vdot in B. cbn in B. rnum. lra.
  - rewrite bound_viol_abs, Hv, Rabs_R0. apply rsum_nonneg. intros a Ha. rewrite Forall_forall in F. apply F, Ha.
Qed.
Lemma row_attained (r : crow) v : typed r -> exists z, length z = length (signs r) /\ Forall (fun v => 0 <= v) z /\ inside (r_bnd r) (v + vdot (signs r) z) /\
  rsum (fun s => s) z = bound_viol (r_bnd r) v.
Proof.
  intros (Hp & Ht). pose proof (Hp) as Hp'. unfold proper in Hp'.
  assert (K : forall z, length z = length (signs r) -> Forall (fun v => 0 <= v) z -> v + vdot (signs r) z = v - bound_error (r_bnd r) v -> rsum (fun s => s) z = bound_viol (r_bnd r) v ->
    exists z, length z = length (signs r) /\ Forall (fun v => 0 <= v) z /\ inside (r_bnd r) (v + vdot (signs r) z) /\ rsum (fun s => s) z = bound_viol (r_bnd r) v).
  { intros z L F E S. exists z. split; [exact L|]. split; [exact F|]. split; [|exact S]. rewrite E. rewrite (error_closest _ v Hp). replace (v - (v - closest (r_bnd r) v)) with (closest (r_bnd r) v) by ring. apply closest_inside, Hp. }
  destruct (bound_cases (r_bnd r) v Hp) as [(lo & El & Hlt & Hv & _)|[(hi & Eh & Hgt & Hv & _)|(I & Hv & _)]].
  - rewrite bound_viol_abs, Hv, Rabs_left in * by lra. revert K. unfold signs. destruct Ht as [T | [T | T]]; rewrite T; cbn [slack_signs]; intros K.
    + apply (K [- (v - lo); 0]); [reflexivity|repeat (apply Forall_cons; [lra|]); apply Forall_nil|unfold vdot; cbn; rnum; ring|rewrite !rsum_cons, rsum_nil; ring].
    + apply (K [- (v - lo)]); [reflexivity|repeat (apply Forall_cons; [lra|]); apply Forall_nil|unfold vdot; cbn; rnum; ring|rewrite !rsum_cons, rsum_nil; ring].
    + unfold type_of in T. rewrite El in T. destruct (b_hi (r_bnd r)); [destruct (_ <? _)%num; discriminate|discriminate].
  - rewrite bound_viol_abs, Hv, Rabs_right in * by lra. revert K. unfold signs. destruct Ht as [T | [T | T]]; rewrite T; cbn [slack_signs]; intros K.
    + apply (K [0; v - hi]); [reflexivity|repeat (apply Forall_cons; [lra|]); apply Forall_nil|unfold vdot; cbn; rnum; ring|rewrite !rsum_cons, rsum_nil; ring].
    + unfold type_of in T. rewrite Eh in T. destruct (b_lo (r_bnd r)); [destruct (_ <? _)%num; discriminate|discriminate].
    + apply (K [v - hi]); [reflexivity|repeat (apply Forall_cons; [lra|]); apply Forall_nil|unfold vdot; cbn; rnum; ring|rewrite !rsum_cons, rsum_nil; ring].
  - apply (K (map (fun _ => 0) (signs r))).
    + apply map_length.
    + apply Forall_map, Forall_forall. intros; lra.
    + rewrite Hv. unfold vdot. rewrite vsum_R. change (@nmul R R_Num) with Rmult. enough (forall l : list R, Rsum (map (fun p => fst p * snd p) (combine l (map (fun _ => 0) l))) = 0) as Q by (rewrite (Q (signs r)); lra).
      induction l as [|a l IH]; cbn; [reflexivity|]. rewrite IH. ring.
    + rewrite bound_viol_abs, Hv, Rabs_R0, rsum_map. apply rsum_zero.
Qed.

Lemma vdot_const {A} (k : R) (l : list A) z : length z = length l -> vdot (map (fun _ => k) l) z = k * rsum (fun s => s) z.
Proof.
  intros L. unfold vdot. rewrite vsum_R. revert z L. induction l as [|a l IH]; intros [|b z] L; try discriminate; [cbn; rewrite rsum_nil; ring|].
  cbn [map combine Rsum fst snd]. rewrite rsum_cons. cbn in L. injection L as L. cbn. rewrite IH by exact L. ring.
Qed.
Lemma vdot_app (a a' b b' : list R) : length a = length b -> vdot (a ++ a') (b ++ b') = vdot a b + vdot a' b'.
Proof. intros L. unfold vdot. rewrite !vsum_R, combine_app, map_app, NumFacts.Rsum_app by exact L. reflexivity. Qed.
Definition penalty_sum (x0 x : list R) (l : list (R * crow)) : R := rsum (fun mr => fst mr * r_w (snd mr) * bound_viol (r_bnd (snd mr)) (linear x0 (snd mr) x)) l.
Lemma slack_minimum x0 x l : Forall (fun mr => typed (snd mr) /\ 0 <= fst mr * r_w (snd mr)) l ->
  (forall z, sfeas x0 x l z -> penalty_sum x0 x l <= vdot (slack_costs l) z) /\
  (exists z, sfeas x0 x l z /\ vdot (slack_costs l) z = penalty_sum x0 x l).
Proof.
  induction 1 as [|mr l (T & C) F (IH1 & z0 & IH2 & IH3)].
  - split; [intros z ->; unfold penalty_sum; rewrite rsum_nil; unfold vdot; cbn; lra|]. exists []. split; [reflexivity|]. reflexivity.
  - assert (E : slack_costs (mr :: l) = map (fun _ => fst mr * r_w (snd mr)) (signs (snd mr)) ++ slack_costs l) by reflexivity.
    assert (V : forall z, (length (signs (snd mr)) <= length z)%nat -> vdot (slack_costs (mr :: l)) z =
      fst mr * r_w (snd mr) * rsum (fun s => s) (firstn (length (signs (snd mr))) z) + vdot (slack_costs l) (skipn (length (signs (snd mr))) z)).
    { intros z L. rewrite E. rewrite <- (firstn_skipn (length (signs (snd mr))) z) at 1. rewrite vdot_app by (rewrite map_length, firstn_length; lia).
      rewrite vdot_const by (rewrite firstn_length; lia). reflexivity. }
    unfold penalty_sum. rewrite rsum_cons. fold (penalty_sum x0 x l). split.
    + intros z (L & Z1 & Hin & S). rewrite V by exact L. apply Rplus_le_compat; [|apply IH1, S]. apply Rmult_le_compat_l; [exact C|].
      apply row_lower; auto. rewrite firstn_length. lia.
    + destruct (row_attained (snd mr) (linear x0 (snd mr) x) T) as (z1 & L1 & F1 & I1 & S1). exists (z1 ++ z0).
      assert (Ef : firstn (length (signs (snd mr))) (z1 ++ z0) = z1) by (rewrite <- L1, firstn_app, Nat.sub_diag, firstn_all, firstn_O, app_nil_r; reflexivity).
      assert (Es : skipn (length (signs (snd mr))) (z1 ++ z0) = z0) by (rewrite <- L1, skipn_app, Nat.sub_diag, skipn_all, skipn_O; reflexivity).
      split.
      * cbn [sfeas]. rewrite Ef, Es. split; [rewrite app_length; lia|]. auto.
      * rewrite V by (rewrite app_length; lia). rewrite Ef, Es, S1, IH3. reflexivity.
Qed.

(** the identity rows *)
Lemma identity_rows (v : list R) (obs : list (option (bnd R))) : length obs = length v ->
  (Forall2 (fun r ob => exists b, ob = Some b /\ inside b (srow_dot r v)) (map (fun i => [(i, 1)]) (seq 0 (length v))) obs <->
   Forall2 (fun a ob => exists b, ob = Some b /\ inside b a) v obs).
Proof.
  intros L. rewrite (Forall2_nth_iff _ _ _ [] None), (Forall2_nth_iff _ v obs 0 None). rewrite map_length, seq_length.
  assert (N : forall i, (i < length v)%nat -> srow_dot (nth i (map (fun i => [(i, 1)]) (seq 0 (length v))) []) v = nth i v 0).
  { intros i Hi. rewrite nth_map_seq by exact Hi. rewrite srow_dot_R, rsum_cons, rsum_nil. cbn [fst snd]. ring. }
  split; intros (_ & G); (split; [lia|]); intros i Hi; specialize (G i Hi); [rewrite N in G by lia|rewrite N by lia]; exact G.
Qed.
Lemma slack_rows_nonneg (z : list R) : Forall2 (fun a ob => exists b, ob = Some b /\ inside b a) z (map Some (repeat {| b_lo := Some 0; b_hi := None |} (length z))) <-> Forall (fun v => 0 <= v) z.
Proof.
  induction z as [|a z IH]; [split; constructor|]. cbn [length repeat map]. split; intros G.
  - inversion G as [|? ? ? ? H1 H2]; subst. destruct H1 as (b & [= <-] & (A & _)). constructor; [exact (A 0 eq_refl)|]. apply IH. assumption.
  - inversion G as [|? ? Ha Hz]; subst. constructor; [|apply IH; assumption]. eexists. split; [reflexivity|]. split; [cbn; intros ? [= <-]; assumption|cbn; discriminate].
Qed.
