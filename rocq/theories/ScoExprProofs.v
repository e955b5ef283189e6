(** Proofs about the expression algebra (over the reals). *)
From Coq Require Import List ZArith Bool Lia Reals Lra.
From Verif Require Import Num NumFacts RSums Common ScoExprModel.
Import ListNotations.
Local Open Scope R_scope.

(** ** Values as sums *)
Notation tm x := (fun cv : R * nat => fst cv * nth (snd cv) x 0).
Notation qm x := (fun cv : R * (nat * nat) => fst cv * nth (fst (snd cv)) x 0 * nth (snd (snd cv)) x 0).

Lemma aff_value_sum (e : aff R) x : aff_value e x = a_const e + rsum (tm x) (combine (a_coeffs e) (a_vars e)).
Proof. unfold aff_value, var_value. rnum. apply (fold_rsum (tm x)). Qed.
Lemma quad_value_sum (q : quad R) x : quad_value q x = aff_value (q_aff q) x +
  rsum (qm x) (combine (q_coeffs q) (combine (q_vars1 q) (q_vars2 q))).
Proof. unfold quad_value, var_value. rnum. apply (fold_rsum (qm x)). Qed.

(** ** C31 *)
Lemma aff_const_value (a : R) x : aff_value (aff_const a) x = a.
Proof. rewrite aff_value_sum. cbn. unfold rsum; cbn. ring. Qed.
Lemma aff_var_value v x : aff_value (aff_var v) x = nth v x 0.
Proof. rewrite aff_value_sum. cbn. unfold rsum; cbn. ring. Qed.

Lemma aff_scale_value (e : aff R) a x : aff_value (aff_scale e a) x = aff_value e x * a.
Proof.
  rewrite !aff_value_sum. cbn. rewrite combine_map_l, rsum_map. cbn.
  rewrite Rmult_plus_distr_r, <- rsum_scal_r. f_equal. apply rsum_ext. intros; cbn; rnum; ring.
Qed.
Lemma quad_scale_value (q : quad R) a x : quad_value (quad_scale q a) x = quad_value q x * a.
Proof.
  rewrite !quad_value_sum. cbn [quad_scale q_aff q_coeffs q_vars1 q_vars2].
  rewrite aff_scale_value, combine_map_l, rsum_map. cbn.
  rewrite Rmult_plus_distr_r, <- rsum_scal_r. f_equal. apply rsum_ext. intros; cbn; rnum; ring.
Qed.
Lemma aff_inc_const_value (e : aff R) b x : aff_value (aff_inc_const e b) x = aff_value e x + b.
Proof. rewrite !aff_value_sum. cbn. ring. Qed.
Lemma aff_dec_const_value (e : aff R) b x : aff_value (aff_dec_const e b) x = aff_value e x - b.
Proof. rewrite !aff_value_sum. cbn. ring. Qed.
Lemma aff_inc_value (a b : aff R) x : wf_aff a -> aff_value (aff_inc a b) x = aff_value a x + aff_value b x.
Proof. intros H. rewrite !aff_value_sum. cbn. rewrite combine_app, rsum_app by exact H. ring. Qed.
Lemma aff_scale_wf e a : wf_aff e -> wf_aff (@aff_scale R _ e a).
Proof. unfold wf_aff. cbn. rewrite map_length. auto. Qed.
Lemma aff_dec_value (a b : aff R) x : wf_aff a -> aff_value (aff_dec a b) x = aff_value a x - aff_value b x.
Proof. intros H. unfold aff_dec. rewrite aff_inc_value, aff_scale_value by exact H. rnum. ring. Qed.

Lemma quad_aff_value (q : quad R) a x : quad_value (with_aff q a) x = quad_value q x - aff_value (q_aff q) x + aff_value a x.
Proof. rewrite !quad_value_sum. cbn. ring. Qed.
Lemma quad_of_aff_value (a : aff R) x : quad_value (quad_of_aff a) x = aff_value a x.
Proof. rewrite quad_value_sum. cbn. unfold rsum; cbn. ring. Qed.
Lemma quad_inc_value (a b : quad R) x : wf_quad a -> quad_value (quad_inc a b) x = quad_value a x + quad_value b x.
Proof.
  intros (H1 & H2 & H3). rewrite !quad_value_sum. cbn [quad_inc q_aff q_coeffs q_vars1 q_vars2].
  rewrite aff_inc_value by exact H1. rewrite (combine_app (q_vars1 a)) by congruence.
  rewrite combine_app, rsum_app. { ring. }
  rewrite combine_length, H2, H3. lia.
Qed.
Lemma quad_dec_value (a b : quad R) x : wf_quad a -> quad_value (quad_dec a b) x = quad_value a x - quad_value b x.
Proof. intros H. unfold quad_dec. rewrite quad_inc_value, quad_scale_value by exact H. rnum. ring. Qed.

(** ** C32 *)
Lemma mult_terms (x : list R) (a b : list (R * nat)) :
  rsum (fun p => rsum (fun q => fst p * fst q * nth (snd p) x 0 * nth (snd q) x 0) b) a =
  rsum (tm x) a * rsum (tm x) b.
Proof.
  rewrite <- rsum_scal_r. apply rsum_ext. intros p _.
  rewrite <- rsum_scal. apply rsum_ext. intros q _. ring.
Qed.

Lemma combine_const {A B} (v : A) (l : list B) : combine (map (fun _ => v) l) l = map (fun b => (v, b)) l.
Proof. induction l as [|y l IH]; cbn; auto. f_equal. exact IH. Qed.

Lemma flat_map_pairs (A B : list (R * nat)) :
  combine (flat_map (fun c1 => map (fun c2 => c1 * c2) (map fst B)) (map fst A))
    (combine (flat_map (fun v1 => map (fun _ => v1) (map snd B)) (map snd A)) (flat_map (fun _ => map snd B) (map snd A))) =
  flat_map (fun p => map (fun q => (fst p * fst q, (snd p, snd q))) B) A.
Proof.
  induction A as [|p A IH]; [reflexivity|]. cbn [map flat_map].
  rewrite (combine_app (map (fun _ => snd p) _)) by (rewrite !map_length; reflexivity).
  rewrite combine_app.
  2: { rewrite combine_length, !map_length. lia. }
  rewrite IH. f_equal. clear. induction B as [|q B IH]; [reflexivity|]. cbn. f_equal. exact IH.
Qed.

Lemma mult_terms' (x : list R) (A B : list (R * nat)) :
  rsum (qm x) (flat_map (fun p => map (fun q => (fst p * fst q, (snd p, snd q))) B) A) = rsum (tm x) A * rsum (tm x) B.
Proof.
  rewrite rsum_flat_map, <- mult_terms. apply rsum_ext. intros p _. rewrite rsum_map. reflexivity.
Qed.

Lemma aff_mult_value (a b : aff R) x : wf_aff a -> wf_aff b -> quad_value (aff_mult a b) x = aff_value a x * aff_value b x.
Proof.
  intros Ha Hb. rewrite quad_value_sum, (aff_value_sum (q_aff _)), (aff_value_sum a), (aff_value_sum b).
  cbn [aff_mult q_aff q_coeffs q_vars1 q_vars2 a_const a_coeffs a_vars].
  destruct (combine_split_eq _ _ Ha) as [Ea1 Ea2]. destruct (combine_split_eq _ _ Hb) as [Eb1 Eb2].
  set (A := combine (a_coeffs a) (a_vars a)) in *. set (B := combine (a_coeffs b) (a_vars b)) in *.
  rewrite <- Ea1, <- Ea2, <- Eb1, <- Eb2. rnum.
  rewrite flat_map_pairs, mult_terms'.
  rewrite combine_app by (rewrite !map_length; reflexivity).
  rewrite !map_map, rsum_app.
  assert (Hl : forall k (L : list (R * nat)), rsum (tm x) (combine (map (fun p => k * fst p) L) (map snd L)) = k * rsum (tm x) L).
  { intros k L. induction L as [|p L IH]; [unfold rsum; cbn; ring|]. cbn [map combine]. rewrite !rsum_cons, IH. cbn. ring. }
  rewrite !Hl. ring.
Qed.

Lemma square_pairs (L : list (R * nat)) x :
  rsum (qm x) (combine (square_coeffs (map fst L)) (combine (square_vars1 (map snd L)) (square_vars2 (map snd L)))) =
  rsum (tm x) L * rsum (tm x) L.
Proof.
  induction L as [|p L IH]; [unfold rsum; cbn; ring|]. cbn [map square_coeffs square_vars1 square_vars2 combine].
  rewrite (combine_app (map (fun _ => snd p) _)) by (rewrite !map_length; reflexivity).
  rewrite combine_app by (rewrite combine_length, !map_length; lia).
  rewrite rsum_cons, rsum_app, IH, (rsum_cons (tm x)). cbn [fst snd].
  assert (H2 : rsum (qm x) (combine (map (fun c' => nofZ 2 * fst p * c') (map fst L))
      (combine (map (fun _ => snd p) (map snd L)) (map snd L))) =
      2 * (fst p * nth (snd p) x 0) * rsum (tm x) L).
  { clear IH. induction L as [|q L IH]; [unfold rsum; cbn; ring|].
    cbn [map combine]. rewrite !rsum_cons, IH. rnum. cbn [fst snd]. ring. }
  change nmul with Rmult in *. rewrite H2. ring.
Qed.

Lemma aff_square_value (e : aff R) x : wf_aff e -> quad_value (aff_square e) x = aff_value e x * aff_value e x.
Proof.
  intros H. rewrite quad_value_sum, (aff_value_sum (q_aff _)), (aff_value_sum e).
  cbn [aff_square q_aff q_coeffs q_vars1 q_vars2 a_const a_coeffs a_vars].
  destruct (combine_split_eq _ _ H) as [E1 E2].
  set (L := combine (a_coeffs e) (a_vars e)) in *. rewrite <- E1, <- E2. rewrite square_pairs.
  rewrite combine_map_l, rsum_map.
  destruct (combine_split_eq (map fst L) (map snd L)) as [_ _]; [rewrite !map_length; reflexivity|].
  assert (EL : combine (map fst L) (map snd L) = L).
  { clear. induction L as [|[c v] L IH]; cbn; auto. f_equal. exact IH. }
  rewrite EL. rnum.
  rewrite (rsum_ext _ (fun p => 2 * a_const e * (fst p * nth (snd p) x 0))) by (intros; cbn; ring).
  rewrite rsum_scal. ring.
Qed.

Lemma var_square_value v x : quad_value (@var_square R _ v) x = nth v x 0 * nth v x 0.
Proof. rewrite quad_value_sum, aff_value_sum. unfold rsum; cbn. ring. Qed.

(** well-formedness is preserved *)
Lemma aff_mult_wf (a b : aff R) : wf_aff a -> wf_aff b -> wf_quad (aff_mult a b).
Proof.
  unfold wf_quad, wf_aff. cbn. intros Ha Hb. rewrite !app_length, !map_length.
  rewrite (flat_map_length_const _ (length (a_vars b))) by (intros; rewrite map_length; reflexivity).
  rewrite (flat_map_length_const (fun _ : var => a_vars b) (length (a_vars b))) by reflexivity.
  rewrite (flat_map_length_const _ (length (a_coeffs b))) by (intros; rewrite map_length; reflexivity).
  rewrite Ha, Hb. auto.
Qed.
Lemma square_wf_len (cs : list R) (vs : list nat) : length cs = length vs ->
  length (square_vars1 vs) = length (square_coeffs cs) /\ length (square_vars2 vs) = length (square_coeffs cs).
Proof.
  revert vs; induction cs as [|c cs IH]; intros [|v vs] H; cbn in *; try discriminate; auto.
  rewrite !app_length, !map_length. destruct (IH vs) as [H1 H2]; [lia|]. rewrite H1, H2. split; f_equal; lia.
Qed.
Lemma aff_square_wf (e : aff R) : wf_aff e -> wf_quad (aff_square e).
Proof.
  intros H. split; [unfold wf_aff; cbn; rewrite map_length; exact H|]. cbn. apply square_wf_len. exact H.
Qed.
Lemma aff_inc_wf (a b : aff R) : wf_aff a -> wf_aff b -> wf_aff (aff_inc a b).
Proof. unfold wf_aff. cbn. rewrite !app_length. lia. Qed.
Lemma quad_scale_wf (q : quad R) k : wf_quad q -> wf_quad (quad_scale q k).
Proof. unfold wf_quad, wf_aff. cbn. rewrite !map_length. auto. Qed.
Lemma quad_inc_wf (a b : quad R) : wf_quad a -> wf_quad b -> wf_quad (quad_inc a b).
Proof. unfold wf_quad, wf_aff. cbn. rewrite !app_length. intuition lia. Qed.

(** ** C33 *)
Definition dropped (e : aff R) : list (R * nat) :=
  filter (fun cv => negb (keep_term cv)) (combine (a_coeffs e) (a_vars e)).

Lemma cleanup_value e x : aff_value (aff_cleanup e) x = aff_value e x - rsum (tm x) (dropped e).
Proof.
  rewrite !aff_value_sum. cbn [aff_cleanup a_const a_coeffs a_vars]. rewrite combine_fst_snd.
  rewrite (filter_rsum keep_term (tm x) (combine (a_coeffs e) (a_vars e))). unfold dropped. ring.
Qed.

Lemma Rdec_m7 : Rdec 1 (-7) = 1 / 10 ^ 7.
Proof. unfold Rdec. reflexivity. Qed.

Lemma dropped_small e cv : In cv (dropped e) -> Rabs (fst cv) <= 1 / 10 ^ 7.
Proof.
  unfold dropped. intros H. apply filter_In in H as [_ H]. unfold keep_term in H. rnum.
  apply negb_true_iff in H. rcmp. rewrite Rdec_m7 in H. exact H.
Qed.

Lemma cleanup_bound e x :
  Rabs (aff_value (aff_cleanup e) x - aff_value e x) <=
  1 / 10 ^ 7 * rsum (fun cv => Rabs (nth (snd cv) x 0)) (dropped e).
Proof.
  rewrite cleanup_value.
  replace (aff_value e x - rsum (tm x) (dropped e) - aff_value e x) with (- rsum (tm x) (dropped e)) by ring.
  rewrite Rabs_Ropp. pose proof (dropped_small e) as Hd. revert Hd. generalize (dropped e) as L.
  induction L as [|cv L IH]; intros Hd.
  - unfold rsum; cbn [map Rsum]. rewrite Rabs_R0. lra.
  - rewrite !rsum_cons. eapply Rle_trans; [apply Rabs_triang|].
    rewrite Rmult_plus_distr_l. apply Rplus_le_compat.
    + rewrite Rabs_mult. apply Rmult_le_compat_r; [apply Rabs_pos|]. apply Hd. left; reflexivity.
    + apply IH. intros cv' Hin. apply Hd. right. exact Hin.
Qed.

Lemma cleanup_terms (e : aff R) : wf_aff e ->
  wf_aff (aff_cleanup e) /\ a_const (aff_cleanup e) = a_const e /\
  combine (a_coeffs (aff_cleanup e)) (a_vars (aff_cleanup e)) =
    filter (fun cv => Rltb (1 / 10 ^ 7) (Rabs (fst cv))) (combine (a_coeffs e) (a_vars e)).
Proof.
  intros H. split; [|split].
  - unfold wf_aff. cbn. rewrite !map_length. reflexivity.
  - reflexivity.
  - cbn [aff_cleanup a_coeffs a_vars]. rewrite combine_fst_snd. unfold keep_term. rnum. rewrite Rdec_m7. reflexivity.
Qed.

Lemma cleanup_all (e : aff R) (x : list R) : wf_aff e ->
    let removed := filter (fun cv => Rleb (Rabs (fst cv)) (1 / 10 ^ 7)) (combine (a_coeffs e) (a_vars e)) in
    wf_aff (aff_cleanup e) /\ a_const (aff_cleanup e) = a_const e /\
    combine (a_coeffs (aff_cleanup e)) (a_vars (aff_cleanup e)) =
      filter (fun cv => Rltb (1 / 10 ^ 7) (Rabs (fst cv))) (combine (a_coeffs e) (a_vars e)) /\
    Rabs (aff_value (aff_cleanup e) x - aff_value e x) <=
      1 / 10 ^ 7 * Rsum (map (fun cv => Rabs (nth (snd cv) x 0)) removed).
Proof.
  intros H removed. destruct (cleanup_terms e H) as (H1 & H2 & H3). repeat split; auto.
  pose proof (cleanup_bound e x) as Hb.
  assert (Er : dropped e = removed).
  { unfold dropped, removed. apply filter_ext_in'. intros cv. unfold keep_term. rnum. rewrite Rdec_m7.
    destruct (Rltb (1 / 10 ^ 7) (Rabs (fst cv))) eqn:E1; cbn [negb]; symmetry; rcmp; lra. }
  rewrite Er in Hb. exact Hb.
Qed.

Lemma quad_ops_value (a b : quad R) (e : aff R) (k : R) (v : nat) (x : list R) : wf_quad a ->
    quad_value (quad_scale a k) x = quad_value a x * k /\
    quad_value (quad_inc_const a k) x = quad_value a x + k /\
    quad_value (quad_inc_var a v) x = quad_value a x + nth v x 0 /\
    quad_value (quad_inc_aff a e) x = quad_value a x + aff_value e x /\
    quad_value (quad_inc a b) x = quad_value a x + quad_value b x /\
    quad_value (quad_dec_const a k) x = quad_value a x - k /\
    quad_value (quad_dec_var a v) x = quad_value a x - nth v x 0 /\
    quad_value (quad_dec_aff a e) x = quad_value a x - aff_value e x /\
    quad_value (quad_dec a b) x = quad_value a x - quad_value b x.
Proof.
  intros H. pose proof (proj1 H) as Ha.
  unfold quad_inc_const, quad_inc_var, quad_inc_aff, quad_dec_const, quad_dec_var, quad_dec_aff, aff_dec_var.
  rewrite quad_scale_value, quad_inc_value, quad_dec_value, !quad_aff_value by exact H.
  rewrite aff_inc_const_value, aff_dec_const_value, !aff_inc_value, !aff_dec_value, !aff_var_value by exact Ha.
  repeat split; ring.
Qed.

Lemma ops_wf (a b : aff R) (p q : quad R) (k : R) (v : nat) :
    wf_aff a -> wf_aff b -> wf_quad p -> wf_quad q ->
    wf_aff (aff_const k) /\ wf_aff (@aff_var R _ v) /\ wf_aff (aff_scale a k) /\ wf_aff (aff_inc a b) /\
    wf_aff (aff_dec a b) /\ wf_aff (aff_cleanup a) /\ wf_quad (quad_of_aff a) /\ wf_quad (quad_scale p k) /\
    wf_quad (quad_inc p q) /\ wf_quad (quad_dec p q) /\ wf_quad (quad_inc_aff p a) /\ wf_quad (quad_dec_aff p a) /\
    wf_quad (aff_mult a b) /\ wf_quad (aff_square a) /\ wf_quad (@var_square R _ v).
Proof.
  intros Ha Hb Hp Hq.
  split; [reflexivity|]. split; [reflexivity|]. split; [apply aff_scale_wf, Ha|].
  split; [apply aff_inc_wf; assumption|]. split; [apply aff_inc_wf; [assumption|apply aff_scale_wf, Hb]|].
  split; [unfold wf_aff; cbn; rewrite !map_length; reflexivity|].
  split; [repeat split; exact Ha|]. split; [apply quad_scale_wf, Hp|]. split; [apply quad_inc_wf; assumption|].
  split; [apply quad_inc_wf; [assumption|apply quad_scale_wf, Hq]|].
  split. { destruct Hp as (H1 & H2 & H3). repeat split; auto. apply aff_inc_wf; assumption. }
  split. { destruct Hp as (H1 & H2 & H3). repeat split; auto. apply aff_inc_wf; [assumption|apply aff_scale_wf, Ha]. }
  split; [apply aff_mult_wf; assumption|]. split; [apply aff_square_wf; assumption|]. repeat split.
Qed.
