(** * C53 (boundary), C54, C78-C81: from contacts to constraint rows *)
From Coq Require Import List ZArith Bool Arith Reals Lra Lia Permutation Sorted.
From Verif Require Import Num NumFacts RSums Common CollisionModel CollisionSpec CollisionProofs CollisionAvgProofs CollisionProps.
Import ListNotations.
Local Open Scope R_scope.

(** ** C78 *)
Theorem C78_filter_spec : forall (margin buffer : R) v0 v1 l, v0 && v1 = false ->
  exists p, removeInvalidContactResults margin buffer v0 v1 l = filter p l /\
  forall c, p c = true <->
    ct_dist c <= margin + buffer /\
    (v0 = true \/ v1 = true ->
     exists i, side (ct_cc c) i <> CCNone /\ side (ct_cc c) i <> (if v0 then CCTime0 else CCTime1)).
Proof.
  intros margin buffer v0 v1 l Hv. exists (fun r => negb (invalid_contact margin buffer v0 v1 r)). split; [reflexivity|].
  intros c. unfold invalid_contact. rnum. destruct (Rltb_spec (margin + buffer) (ct_dist c)) as [H|H].
  - split; [discriminate|]. intros [H' _]. lra.
  - destruct v0, v1; try discriminate; cbn [negb andb].
    + split.
      * intros E. split; [exact H|]. intros _. destruct (ct_cc c) as [x y]; cbn in *.
        destruct x; try solve [exists false; split; discriminate]; destruct y; try solve [exists true; split; discriminate]; discriminate E.
      * intros [_ E]. destruct E as [[|] [E1 E2]]; auto; destruct (ct_cc c) as [x y]; cbn in *; destruct x, y; auto; congruence.
    + split.
      * intros E. split; [exact H|]. intros _. destruct (ct_cc c) as [x y]; cbn in *.
        destruct x; try solve [exists false; split; discriminate]; destruct y; try solve [exists true; split; discriminate]; discriminate E.
      * intros [_ E]. destruct E as [[|] [E1 E2]]; auto; destruct (ct_cc c) as [x y]; cbn in *; destruct x, y; auto; congruence.
    + split; [|reflexivity]. intros _. split; [exact H|]. intros [|]; discriminate.
Qed.
Print Assumptions C78_filter_spec.

Definition ex_contact (d : R) (a b : cctype) (n : nat) : contact R :=
  {| ct_dist := d; ct_shape := (0, 0)%Z; ct_sub := (0, 0)%Z; ct_cc := (a, b); ct_id := n |}.

Example C78_ex : map (@ct_id R) (removeInvalidContactResults (1 / 4) (1 / 4) true false
  [ex_contact 0 CCTime0 CCTime0 1; ex_contact (1 / 2) CCTime0 CCBetween 2; ex_contact 1 CCBetween CCBetween 3]) = [2%nat].
Proof.
  unfold removeInvalidContactResults, invalid_contact. cbn -[Rltb]. rnum. cbn -[Rltb].
  rewrite !(proj2 (Rltb_false _ _)) by lra. rewrite (proj2 (Rltb_true _ _)) by lra. reflexivity.
Qed.

(** The evaluators of trajopt assert that this filter and their own older one leave equally many
    contacts; the two disagree in both directions once a collision end is fixed. *)
Theorem C78_old_filter_agrees_refuted : forall margin buffer : R,
  (exists c, invalid_contact margin buffer true false c = false /\ invalid_contact_old margin buffer true false c = Some true) /\
  (exists c, invalid_contact margin buffer true false c = true /\ invalid_contact_old margin buffer true false c = Some false).
Proof.
  intros margin buffer.
  assert (H : Rltb (margin + buffer) (margin + buffer) = false) by (apply Rltb_false; lra).
  split; [exists (ex_contact (margin + buffer) CCTime0 CCBetween 0)|exists (ex_contact (margin + buffer) CCNone CCNone 0)];
  unfold invalid_contact, invalid_contact_old; cbn -[Rltb]; rnum; rewrite H; auto.
Qed.
Print Assumptions C78_old_filter_agrees_refuted.

(** They do agree when both ends are free. *)
Theorem C78_old_filter_agrees_partial : forall (margin buffer : R) c,
  invalid_contact_old margin buffer false false c = Some (invalid_contact margin buffer false false c).
Proof. intros. unfold invalid_contact, invalid_contact_old. cbn -[Rltb]. destruct (Rltb (margin + buffer) (ct_dist c)); reflexivity. Qed.
Print Assumptions C78_old_filter_agrees_partial.

(** ** C80 *)
Section Sets.
  Variables (lowest : R) (key : Z -> Z -> Z) (grad : nat * nat -> contact R -> gres R) (d : coeffs R) (cont : bool).
  Notation sets := (all_sets lowest key grad d cont).
  Notation skey := (shape_key key).

  Lemma insert_results sh fresh r l : gs_results fresh = [] ->
    Permutation (flat_map (@gs_results R) (shape_insert sh fresh r l)) (r :: flat_map (@gs_results R) l).
  Proof.
    intros E. induction l as [|s l IH]; cbn [shape_insert flat_map].
    - unfold gs_add. cbn. rewrite E. cbn. auto.
    - destruct (zpaireqb sh (gs_shape s)).
      + cbn [flat_map]. unfold gs_add at 1. cbn [gs_results]. rewrite <- app_assoc. cbn. apply Permutation_sym, Permutation_middle.
      + destruct (zpairltb sh (gs_shape s)); cbn [flat_map].
        * unfold gs_add at 1. cbn [gs_results]. rewrite E. cbn. auto.
        * rewrite IH. apply Permutation_sym, Permutation_middle.
  Qed.

  Lemma pair_results k cs : Permutation (flat_map (@gs_results R) (pair_sets lowest key grad d cont (k, cs))) (map (grad k) cs).
  Proof.
    unfold pair_sets. cbn [fst snd]. induction cs as [|c cs IH] using rev_ind; [constructor|].
    rewrite fold_left_app, map_app. cbn [fold_left map]. rewrite insert_results by reflexivity. rewrite IH.
    apply Permutation_cons_append.
  Qed.

  Lemma sets_results m : Permutation (flat_map (@gs_results R) (sets m)) (flat_map (fun p => map (grad (fst p)) (snd p)) m).
  Proof.
    induction m as [|[k cs] m IH]; [constructor|]. unfold all_sets in *. cbn [flat_map]. rewrite flat_map_app, IH.
    apply Permutation_app_tail, pair_results.
  Qed.

  Lemma sets_in m s : In s (sets m) <-> exists k cs c, In (k, cs) m /\ In c cs /\ s = group lowest key grad d cont k cs (skey c).
  Proof.
    unfold all_sets. rewrite in_flat_map. split.
    - intros ([k cs] & H1 & H2). apply pair_sets_grouped in H2 as (c & H2 & ->). eauto 6.
    - intros (k & cs & c & H1 & H2 & ->). exists (k, cs). split; auto. apply pair_sets_grouped. eauto.
  Qed.

  Lemma group_key k cs sh : gs_key (group lowest key grad d cont k cs sh) = k.
  Proof. unfold group. apply built_key. Qed.

  Lemma sets_nodup m : NoDup (map fst m) -> NoDup (map (fun s => (gs_key s, gs_shape s)) (sets m)).
  Proof.
    induction m as [|[k cs] m IH]; [constructor|]. cbn [map fst]. intros H. apply NoDup_cons_iff in H as [H1 H2].
    unfold all_sets in *. cbn [flat_map]. rewrite map_app.
    assert (ND : forall l, StronglySorted (fun a b : gset R => zpairltb (gs_shape a) (gs_shape b) = true) l -> NoDup (map (fun s => (gs_key s, gs_shape s)) l)).
    { induction 1 as [|a l HS IHl HF]; cbn; constructor; auto. intros Hin. apply in_map_iff in Hin as (b & [= E1 E2] & Hb).
      rewrite Forall_forall in HF. specialize (HF b Hb). rewrite E2, zpairltb_irrefl in HF. discriminate. }
    assert (A := ND _ (proj1 (pair_sets_grouped lowest key grad d cont k cs))). specialize (IH H2).
    revert A. assert (K : forall s, In s (pair_sets lowest key grad d cont (k, cs)) -> gs_key s = k).
    { intros s Hs. apply pair_sets_grouped in Hs as (c & _ & ->). apply group_key. }
    induction (pair_sets lowest key grad d cont (k, cs)) as [|s l IHl]; cbn; [auto|]. intros A.
    apply NoDup_cons_iff in A as [A1 A2]. constructor.
    - intros Hin. apply in_app_or in Hin as [Hin|Hin]; [contradiction|]. apply H1.
      apply in_map_iff in Hin as (s' & [= E1 E2] & Hs'). change (In s' (sets m)) in Hs'.
      apply sets_in in Hs' as (k' & cs' & c' & M1 & M2 & ->). rewrite group_key in E1.
      rewrite (K s) in E1 by (cbn; auto). subst. apply in_map_iff. exists (k, cs'). auto.
    - apply IHl; auto. intros; apply K; cbn; auto.
  Qed.

  Lemma group_results k cs sh : gs_results (group lowest key grad d cont k cs sh) = map (grad k) (filter (fun c => zpaireqb (skey c) sh) cs).
  Proof. unfold group. apply built_results. Qed.
End Sets.

(** Every contact contributes to exactly one set, the one of its link pair and shape keys; every set
    is non-empty, holds the results of exactly the contacts with its keys in their order, and carries
    the coefficient of its pair. *)
Theorem C80_grouping : forall lowest key grad d cont m,
  let sets := all_sets lowest key grad d cont m in
  Permutation (flat_map (@gs_results R) sets) (flat_map (fun p => map (grad (fst p)) (snd p)) m) /\
  (NoDup (map fst m) -> NoDup (map (fun s => (gs_key s, gs_shape s)) sets)) /\
  (forall s, In s sets -> exists cs,
     In (gs_key s, cs) m /\ gs_coeff s = getCollisionCoeff d (fst (gs_key s)) (snd (gs_key s)) /\
     gs_results s = map (grad (gs_key s)) (filter (fun c => zpaireqb (shape_key key c) (gs_shape s)) cs) /\ gs_results s <> []) /\
  (forall k c, contact_in m k c -> exists s, In s sets /\ gs_key s = k /\ gs_shape s = shape_key key c /\ In (grad k c) (gs_results s)).
Proof.
  intros lowest key grad d cont m sets. split; [apply sets_results|]. split; [apply sets_nodup|].
  assert (HR : forall cs (c : contact R), In c cs -> In c (filter (fun c0 => zpaireqb (shape_key key c0) (shape_key key c)) cs)).
  { intros cs c Hc. apply filter_In. split; auto. apply zpaireqb_eq. reflexivity. }
  split.
  - intros s Hs. apply sets_in in Hs as (k & cs & c & H1 & H2 & ->). exists cs.
    rewrite group_key, group_results, group_shape. split; [exact H1|]. split; [unfold group; apply built_coeff|]. split; [reflexivity|].
    intros E. apply map_eq_nil in E. specialize (HR cs c H2). rewrite E in HR. destruct HR.
  - intros k c (cs & H1 & H2). exists (group lowest key grad d cont k cs (shape_key key c)).
    split; [apply sets_in; eauto 7|]. rewrite group_key, group_shape, group_results. split; [reflexivity|]. split; [reflexivity|].
    apply in_map, HR, H2.
Qed.
Print Assumptions C80_grouping.

Definition ex_grad (k : nat * nat) (c : contact R) : gres R :=
  ex_res (- ct_dist c) (ex_link true [1] (fst (ct_cc c))) (ex_link false [] CCNone).
Example C80_ex :
  let c1 := ex_contact 1 CCNone CCNone 1 in
  let c2 := {| ct_dist := 2; ct_shape := (1, 0)%Z; ct_sub := (0, 0)%Z; ct_cc := (CCNone, CCNone); ct_id := 2 |} in
  let c3 := ex_contact 3 CCNone CCNone 3 in
  map (fun s => (gs_key s, gs_shape s, map (@gr_err R) (gs_results s)))
    (all_sets (-1000) (fun a b => (2 * a + b)%Z) ex_grad (coeff_new 1) true [((1, 2)%nat, [c1; c2; c3]); ((1, 3)%nat, [c1])])
  = [((1, 2)%nat, (0, 0)%Z, [- (1); - (3)]); ((1, 2)%nat, (2, 0)%Z, [- (2)]); ((1, 3)%nat, (0, 0)%Z, [- (1)])].
Proof. reflexivity. Qed.

(** ** C54 *)
Lemma F2_length {A B} (P : A -> B -> Prop) l l' : Forall2 P l l' -> length l = length l'.
Proof. induction 1; cbn; congruence. Qed.
Lemma F2_flip {A B} (P : A -> B -> Prop) l l' : Forall2 P l l' -> Forall2 (fun b a => P a b) l' l.
Proof. induction 1; constructor; auto. Qed.

Section Kept.
  Variables (lowest : R) (key : Z -> Z -> Z) (grad : nat * nat -> contact R -> gres R) (d : coeffs R) (cont : bool).
  Variables (m : list ((nat * nat) * list (contact R))) (buffer : R).
  Hypothesis lowest_neg : lowest < 0.
  Hypothesis range : forall k c, contact_in m k c -> lowest / 2 < gr_err (grad k c) /\ lowest / 2 < gr_errb (grad k c).
  Hypothesis with_buffer : forall k c, contact_in m k c -> gr_errb (grad k c) = gr_err (grad k c) + buffer.
  Notation sets := (all_sets lowest key grad d cont m).

  (** a set of the contact map *)
  Definition set_of (s : gset R) (rs : list (gres R)) : Prop :=
    (exists k sh c, s = built lowest k sh c cont rs) /\ rs <> [] /\
    forall r, In r rs -> exists k c, contact_in m k c /\ r = grad k c.

  Lemma sets_of s : In s sets -> set_of s (gs_results s).
  Proof.
    intros Hs. destruct (C80_grouping lowest key grad d cont m) as (_ & _ & A & _). destruct (A s Hs) as (cs & H1 & _ & H3 & H4).
    split; [|split; [exact H4|]].
    - apply sets_in in Hs as (k & cs' & c & _ & _ & ->). rewrite group_results. unfold group. eauto.
    - rewrite H3. intros r Hr. apply in_map_iff in Hr as (c & <- & Hc). apply filter_In in Hc as [Hc _].
      exists (gs_key s), c. split; auto. exists cs. auto.
  Qed.

  Lemma set_range s rs : set_of s rs -> forall r, In r rs -> lowest / 2 < gr_err r /\ lowest / 2 < gr_errb r.
  Proof. intros (_ & _ & H) r Hr. destruct (H r Hr) as (k & c & Hc & ->). apply range, Hc. Qed.

  Lemma filter_all {A} (p : A -> bool) l : (forall a, In a l -> p a = true) -> filter p l = l.
  Proof. induction l as [|a l IH]; intros H; [reflexivity|]. cbn. rewrite H by (cbn; auto). f_equal. apply IH. intros; apply H; cbn; auto. Qed.

  Lemma contact_set k c : contact_in m k c -> exists s, In s sets /\ In (grad k c) (gs_results s).
  Proof. intros Hc. destruct (C80_grouping lowest key grad d cont m) as (_ & _ & _ & A). destruct (A k c Hc) as (s & H1 & _ & _ & H2). eauto. Qed.

  Lemma cont_set' v0 v1 s rs : v0 && v1 = false -> (forall k c, contact_in m k c -> relevant v0 v1 (grad k c) = true) ->
    set_of s rs -> exists e, continuous_value lowest v0 v1 buffer s = Ok (Some e) /\ cont_measure lowest v0 v1 s = Ok (Some (e + buffer)) /\
    is_max (map (@gr_err R) rs) e.
  Proof.
    intros Hv Hrel S. pose proof (set_range s rs S) as Hr.
    destruct S as ((k & sh & c & ->) & Hne & Hc).
    assert (F : filter (relevant v0 v1) rs = rs).
    { apply filter_all. intros r Hin. destruct (Hc r Hin) as (k' & c' & H' & ->). eauto. }
    destruct (value_spec lowest k sh c cont rs v0 v1 buffer lowest_neg Hr) as (e & E1 & E2); [rewrite F; exact Hne|].
    rewrite F in E2. exists e. split; [exact E1|]. split; [|exact E2].
    pose proof (measure_spec lowest k sh c cont rs v0 v1 lowest_neg Hr Hv) as M. rewrite F in M.
    destruct M as [[M _]|(x & M1 & M2)]; [apply map_eq_nil in M; contradiction|]. rewrite M1. repeat f_equal.
    destruct E2 as [E2 E3], M2 as [M2 M3]. apply in_map_iff in E2 as (r & <- & Er), M2 as (r' & <- & Mr).
    pose proof (E3 _ (in_map gr_err _ _ Mr)). pose proof (M3 _ (in_map gr_errb _ _ Er)).
    assert (B : forall r, In r rs -> gr_errb r = gr_err r + buffer).
    { intros r0 Hr0. destruct (Hc r0 Hr0) as (k' & c' & H' & ->). auto. }
    rewrite !B in * by auto. lra.
  Qed.

  Lemma cont_set v0 v1 s : v0 && v1 = false -> (forall k c, contact_in m k c -> relevant v0 v1 (grad k c) = true) ->
    In s sets -> exists e, continuous_value lowest v0 v1 buffer s = Ok (Some e) /\ cont_measure lowest v0 v1 s = Ok (Some (e + buffer)) /\
    is_max (map (@gr_err R) (gs_results s)) e.
  Proof. intros Hv Hrel Hs. apply cont_set'; auto. apply sets_of, Hs. Qed.
End Kept.

(** Continuous (cast) constraints: when there are more sets than rows, no dropped contact is worse
    than any contact set that is kept, so the worst contact is always reported; every row is the
    error of an actual contact or the padding value [- buffer].  For any order std::sort may return. *)
Theorem C54_continuous : forall lowest key grad d cont m buffer v0 v1 n sets',
  lowest < 0 -> (1 <= n)%nat -> v0 && v1 = false ->
  (forall k c, contact_in m k c -> lowest / 2 < gr_err (grad k c) /\ lowest / 2 < gr_errb (grad k c)) ->
  (forall k c, contact_in m k c -> gr_errb (grad k c) = gr_err (grad k c) + buffer) ->
  (forall k c, contact_in m k c -> relevant v0 v1 (grad k c) = true) ->
  may_sort (fun a b => cmp_continuous lowest v0 v1 a b = Some true) n (all_sets lowest key grad d cont m) sets' ->
  exists vs, continuous_values lowest v0 v1 n buffer sets' = Ok (Some vs) /\ length vs = n /\
    (forall k c, contact_in m k c ->
       (exists v, In v vs /\ gr_err (grad k c) <= v) /\
       ((exists s, In s (firstn n sets') /\ In (grad k c) (gs_results s)) \/ forall v, In v vs -> gr_err (grad k c) <= v)) /\
    (forall v, In v vs -> v = - buffer \/ exists k c, contact_in m k c /\ gr_err (grad k c) = v).
Proof.
  intros lowest key grad d cont m buffer v0 v1 n sets' Hn Hn1 Hv Hrng Hbuf Hrel Hsort.
  pose proof (may_sort_perm _ _ _ _ Hsort) as P. pose proof (may_sort_kept _ _ _ _ Hsort) as K.
  assert (V : forall s, In s sets' -> exists e, continuous_value lowest v0 v1 buffer s = Ok (Some e) /\
     cont_measure lowest v0 v1 s = Ok (Some (e + buffer)) /\ is_max (map (@gr_err R) (gs_results s)) e).
  { intros s Hs. eapply cont_set; eauto. eapply Permutation_in; [apply Permutation_sym, P|exact Hs]. }
  destruct (gather_ok (map (continuous_value lowest v0 v1 buffer) (firstn n sets'))) as (vs & G & F).
  { intros o Ho. apply in_map_iff in Ho as (s & <- & Hs). destruct (V s) as (e & E & _); [|eauto].
    rewrite <- (firstn_skipn n sets'). apply in_or_app; auto. }
  assert (L : length vs = length (firstn n sets')) by (apply F2_length in F; rewrite map_length in F; auto).
  exists (pad n (- buffer) vs). unfold continuous_values. rewrite G. cbn [obind option_map]. split; [reflexivity|].
  assert (Ln : (length vs <= n)%nat) by (rewrite L, firstn_length; lia).
  split; [unfold pad; rewrite app_length, repeat_length; lia|].
  assert (Row : forall s, In s (firstn n sets') -> exists e, In e vs /\ is_max (map (@gr_err R) (gs_results s)) e /\ cont_measure lowest v0 v1 s = Ok (Some (e + buffer))).
  { intros s Hs. destruct (Forall2_In_l _ _ _ (continuous_value lowest v0 v1 buffer s) F) as (e & He & E); [apply in_map, Hs|].
    destruct (V s) as (e' & E1 & E2 & E3). { rewrite <- (firstn_skipn n sets'). apply in_or_app; auto. }
    rewrite E1 in E. injection E as ->. eauto. }
  assert (Col : forall v, In v vs -> exists s, In s (firstn n sets') /\ is_max (map (@gr_err R) (gs_results s)) v /\ cont_measure lowest v0 v1 s = Ok (Some (v + buffer))).
  { intros v Hin. apply F2_flip in F. destruct (Forall2_In_l _ _ _ v F Hin) as (o & Ho & ->).
    apply in_map_iff in Ho as (s & E & Hs). destruct (V s) as (e' & E1 & E2 & E3). { rewrite <- (firstn_skipn n sets'). apply in_or_app; auto. }
    rewrite E1 in E. injection E as ->. eauto. }
  split.
  - intros k c Hc. destruct (contact_set lowest key grad d cont m k c Hc) as (s & Hs & Hr).
    pose proof (Permutation_in _ P Hs) as Hs'. rewrite <- (firstn_skipn n sets') in Hs'. apply in_app_or in Hs' as [H1|H2].
    + destruct (Row s H1) as (e & He & Hm & _). split; [|eauto]. exists e. split; [apply in_or_app; auto|]. apply Hm, in_map, Hr.
    + assert (Full : length vs = n).
      { rewrite L, firstn_length. assert (n < length sets')%nat; [|lia].
        destruct (le_lt_dec (length sets') n) as [Hle|]; auto. rewrite skipn_all2 in H2 by exact Hle. destruct H2. }
      assert (All : forall v, In v vs -> gr_err (grad k c) <= v).
      { intros v Hin. destruct (Col v Hin) as (a & Ha & Ma & Ca). specialize (K a s Ha H2).
        destruct (V s) as (e & _ & E2 & E3); [eapply Permutation_in; eauto|].
        unfold cmp_continuous in K. rewrite E2, Ca in K. change (@nltb R _) with Rltb in K.
        assert (gr_err (grad k c) <= e) by (apply E3, in_map, Hr).
        destruct (Rltb_spec (v + buffer) (e + buffer)); [congruence|lra]. }
      assert (Pad : pad n (- buffer) vs = vs) by (unfold pad; rewrite Full, Nat.sub_diag; apply app_nil_r).
      rewrite Pad. split; [|right; exact All]. destruct vs as [|v vs]; [cbn in Full; lia|]. exists v. split; [cbn; auto|]. apply All. cbn; auto.
  - intros v Hin. unfold pad in Hin. apply in_app_or in Hin as [Hin|Hin].
    + destruct (Col v Hin) as (a & Ha & [Ma _] & _). right.
      apply in_map_iff in Ma as (r & <- & Mr).
      assert (Hs : In a (all_sets lowest key grad d cont m)).
      { eapply Permutation_in; [apply Permutation_sym, P|]. rewrite <- (firstn_skipn n sets'). apply in_or_app; auto. }
      destruct (sets_of lowest key grad d cont m a Hs) as (_ & _ & Hc). destruct (Hc r Mr) as (k & c & ? & ->). eauto.
    + apply repeat_spec in Hin. auto.
Qed.
Print Assumptions C54_continuous.

Definition ex_link2 : lgrad R := ex_link true [1] CCNone.
Definition ex_none : lgrad R := ex_link false [] CCNone.
(** contact 1 moves link A with error -1/2; contact 2 moves link B with error 5 *)
Definition ex_grad2 (k : nat * nat) (c : contact R) : gres R :=
  if (ct_id c =? 1)%nat then ex_res (- (1 / 2)) ex_link2 ex_none else ex_res 5 ex_none ex_link2.
Definition ex_map2 : list ((nat * nat) * list (contact R)) :=
  [((1, 2)%nat, [ex_contact 0 CCNone CCNone 1]); ((1, 3)%nat, [ex_contact 0 CCNone CCNone 2])].
Definition ex_key2 (a b : Z) : Z := (2 * a + b)%Z.

Example C54_ex : exists vs, forall sets',
  may_sort (fun a b => cmp_continuous (-1000) false false a b = Some true) 1
    (all_sets (-1000) ex_key2 ex_grad2 (coeff_new 1) true ex_map2) sets' ->
  continuous_values (-1000) false false 1 1 sets' = Ok (Some vs) /\ vs = [5].
Proof.
  exists [5]. intros sets' Hs. split; [|reflexivity].
  destruct (C54_continuous (-1000) ex_key2 ex_grad2 (coeff_new 1) true ex_map2 1 false false 1 sets') as (vs & E & L & A & B); auto.
  - lra.
  - intros k c (cs & [[= <- <-]|[[= <- <-]|[]]] & [<-|[]]); cbn; lra.
  - intros k c (cs & [[= <- <-]|[[= <- <-]|[]]] & [<-|[]]); cbn; lra.
  - intros k c (cs & [[= <- <-]|[[= <- <-]|[]]] & [<-|[]]); reflexivity.
  - rewrite E. repeat f_equal. destruct vs as [|v [|? ?]]; try discriminate. f_equal.
    destruct (A (1, 3)%nat (ex_contact 0 CCNone CCNone 2)) as [(v' & [<-|[]] & H) _].
    { exists [ex_contact 0 CCNone CCNone 2]. split; cbn; auto. }
    cbn in H. destruct (B v) as [->|(k & c & Hc & E')]; [cbn; auto|lra|].
    destruct Hc as (cs & [[= <- <-]|[[= <- <-]|[]]] & [<-|[]]); cbn in E'; lra.
Qed.

(** Discrete constraints rank the sets by the error of link A only: a set in which only link B moves
    is dropped in favour of a harmless one, and the constraint reports no violation although one
    contact is a collision. *)
Theorem C54_discrete_refuted : forall lowest, lowest < -100 ->
  exists key grad d m buffer,
  (forall k c, contact_in m k c -> gr_errb (grad k c) = gr_err (grad k c) + buffer) /\
  (forall k c, contact_in m k c -> counts_t false (grad k c) = true) /\
  (exists k c, contact_in m k c /\ 0 < gr_err (grad k c)) /\
  forall sets', may_sort (fun a b => cmp_discrete a b = true) 1 (all_sets lowest key grad d false m) sets' ->
  exists v, discrete_values lowest 1 buffer sets' = Ok (Some [v]) /\ v < 0.
Proof.
  intros lowest Hl. exists ex_key2, ex_grad2, (coeff_new 1), ex_map2, 1.
  split. { intros k c (cs & [[= <- <-]|[[= <- <-]|[]]] & [<-|[]]); cbn; lra. }
  split. { intros k c (cs & [[= <- <-]|[[= <- <-]|[]]] & [<-|[]]); reflexivity. }
  split. { exists (1, 3)%nat, (ex_contact 0 CCNone CCNone 2). split; [exists [ex_contact 0 CCNone CCNone 2]; split; cbn; auto|cbn; lra]. }
  intros sets' Hs.
  set (s1 := built lowest (1, 2)%nat (0, 0)%Z 1 false [ex_res (- (1 / 2)) ex_link2 ex_none]).
  set (s2 := built lowest (1, 3)%nat (0, 0)%Z 1 false [ex_res 5 ex_none ex_link2]).
  change (all_sets lowest ex_key2 ex_grad2 (coeff_new 1) false ex_map2) with [s1; s2] in Hs.
  assert (C : cmp_discrete s1 s2 = true).
  { unfold cmp_discrete, s1, s2. cbn -[nmax Rltb]. rewrite nmax_R, Rmax_right by lra. rewrite (proj2 (Rltb_true lowest (- (1 / 2)))) by lra. reflexivity. }
  destruct Hs as [[F _]|(_ & P & HS)]; [cbn in F; lia|].
  assert (E : sets' = [s1; s2]).
  { apply Permutation_length_2_inv in P as [->| ->]; auto. apply StronglySorted_inv in HS as [_ HF].
    apply Forall_inv in HF. contradiction. }
  subst sets'. destruct (getters lowest (1, 2)%nat (0, 0)%Z 1 false [ex_res (- (1 / 2)) ex_link2 ex_none]) as (_ & _ & G); [lra| |].
  { intros r [<-|[]]. cbn. lra. }
  destruct (G false) as [[[F _]|(v & E & M & _)] _]; [discriminate|]. fold s1 in E.
  exists v. unfold discrete_values. cbn [firstn map]. rewrite E. cbn [gather obind option_map]. split; [reflexivity|].
  cbn in M. destruct M as [<-|[]]. lra.
Qed.
Print Assumptions C54_discrete_refuted.

(** Discrete constraints do report the worst contact when link A moves in every contact. *)
Theorem C54_discrete_partial : forall lowest key grad d cont m buffer n sets',
  lowest < 0 -> (1 <= n)%nat ->
  (forall k c, contact_in m k c -> lowest / 2 < gr_err (grad k c) /\ lowest / 2 < gr_errb (grad k c)) ->
  (forall k c, contact_in m k c -> counts false false (grad k c) = true) ->
  may_sort (fun a b => cmp_discrete a b = true) n (all_sets lowest key grad d cont m) sets' ->
  exists vs, discrete_values lowest n buffer sets' = Ok (Some vs) /\ length vs = n /\
    (forall k c, contact_in m k c -> exists v, In v vs /\ gr_err (grad k c) <= v) /\
    (forall v, In v vs -> v = - buffer \/ exists k c, contact_in m k c /\ gr_err (grad k c) = v).
Proof.
  intros lowest key grad d cont m buffer n sets' Hn Hn1 Hrng Hrel Hsort.
  pose proof (may_sort_perm _ _ _ _ Hsort) as P. pose proof (may_sort_kept _ _ _ _ Hsort) as K.
  assert (V0 : forall s rs, set_of lowest grad cont m s rs -> exists e, getMaxErrorT lowest false s = Ok (Some e) /\
     slot_err s false false = e /\ is_max (map (@gr_err R) rs) e).
  { intros s rs Hs. pose proof (set_range lowest grad cont m Hrng s rs Hs) as Hr. destruct Hs as ((k & sh & c & ->) & Hne & Hc).
    assert (F : filter (counts false false) rs = rs).
    { apply filter_all. intros r Hin. destruct (Hc r Hin) as (k' & c' & H' & ->). eauto. }
    assert (F' : filter (counts_t false) rs = rs).
    { apply filter_all. intros r Hin. destruct (Hc r Hin) as (k' & c' & H' & ->). unfold counts_t. rewrite Hrel by auto. reflexivity. }
    destruct (getters lowest k sh c cont rs Hn Hr) as (_ & _ & G). destruct (G false) as [G1 _]. rewrite F' in G1.
    destruct G1 as [[G1 _]|(e & E & M)]; [apply map_eq_nil in G1; contradiction|]. exists e. split; [exact E|]. split; [|exact M].
    destruct (slots_built lowest k sh c cont rs false false) as (_ & _ & S); [intros r Hin; specialize (Hr r Hin); lra|].
    rewrite F in S. destruct S as [S _]; [exact Hne|]. eapply is_max_uniq; eauto. }
  assert (V : forall s, In s sets' -> exists e, getMaxErrorT lowest false s = Ok (Some e) /\
     slot_err s false false = e /\ is_max (map (@gr_err R) (gs_results s)) e).
  { intros s Hs. apply V0. eapply sets_of. eapply Permutation_in; [apply Permutation_sym, P|exact Hs]. }
  destruct (gather_ok (map (getMaxErrorT lowest false) (firstn n sets'))) as (vs & G & F).
  { intros o Ho. apply in_map_iff in Ho as (s & <- & Hs). destruct (V s) as (e & E & _); [|eauto].
    rewrite <- (firstn_skipn n sets'). apply in_or_app; auto. }
  assert (L : length vs = length (firstn n sets')) by (apply F2_length in F; rewrite map_length in F; auto).
  exists (pad n (- buffer) vs). unfold discrete_values. rewrite G. cbn [obind option_map]. split; [reflexivity|].
  assert (Ln : (length vs <= n)%nat) by (rewrite L, firstn_length; lia).
  split; [unfold pad; rewrite app_length, repeat_length; lia|].
  assert (Row : forall s, In s (firstn n sets') -> exists e, In e vs /\ slot_err s false false = e /\ is_max (map (@gr_err R) (gs_results s)) e).
  { intros s Hs. destruct (Forall2_In_l _ _ _ (getMaxErrorT lowest false s) F) as (e & He & E); [apply in_map, Hs|].
    destruct (V s) as (e' & E1 & E2 & E3). { rewrite <- (firstn_skipn n sets'). apply in_or_app; auto. }
    rewrite E1 in E. injection E as ->. eauto. }
  split.
  - intros k c Hc. destruct (contact_set lowest key grad d cont m k c Hc) as (s & Hs & Hr).
    pose proof (Permutation_in _ P Hs) as Hs'. rewrite <- (firstn_skipn n sets') in Hs'. apply in_app_or in Hs' as [H1|H2].
    + destruct (Row s H1) as (e & He & _ & Hm). exists e. split; [apply in_or_app; auto|]. apply Hm, in_map, Hr.
    + destruct (firstn n sets') as [|a rest] eqn:Fn.
      { destruct n; [lia|]. destruct sets'; [destruct H2|discriminate]. }
      destruct (Row a) as (e & He & Ea & _); [cbn; auto|]. exists e. split; [apply in_or_app; auto|].
      assert (Ha : In a (a :: rest)) by (cbn; auto). specialize (K a s Ha H2).
      destruct (V s) as (es & _ & Es & Ms); [eapply Permutation_in; eauto|].
      assert (gr_err (grad k c) <= es) by (apply Ms, in_map, Hr).
      unfold cmp_discrete in K. unfold slot_err in *. cbn [side] in *. rewrite Ea, Es in K. change (@nltb R _) with Rltb in K.
      destruct (Rltb_spec e es); [contradiction|]. lra.
  - intros v Hin. unfold pad in Hin. apply in_app_or in Hin as [Hin|Hin].
    + apply F2_flip in F. destruct (Forall2_In_l _ _ _ v F Hin) as (o & Ho & ->).
      apply in_map_iff in Ho as (s & E & Hs).
      assert (Hs' : In s sets') by (rewrite <- (firstn_skipn n sets'); apply in_or_app; auto).
      destruct (V s Hs') as (e' & E1 & _ & [M _]). rewrite E1 in E. injection E as ->. right.
      apply in_map_iff in M as (r & <- & Mr).
      destruct (sets_of lowest key grad d cont m s) as (_ & _ & Hc).
      { eapply Permutation_in; [apply Permutation_sym, P|exact Hs']. }
      destruct (Hc r Mr) as (k & c & ? & ->). eauto.
    + apply repeat_spec in Hin. auto.
Qed.
Print Assumptions C54_discrete_partial.

Example C54_discrete_ex : let m := [((1, 2)%nat, [ex_contact (-3) CCNone CCNone 1]); ((1, 3)%nat, [ex_contact (-4) CCNone CCNone 2])] in
  forall sets', may_sort (fun a b => cmp_discrete a b = true) 1 (all_sets (-1000) ex_key2 ex_grad (coeff_new 1) false m) sets' ->
  exists v, discrete_values (-1000) 1 1 sets' = Ok (Some [v]) /\ 4 <= v.
Proof.
  intros m sets' Hs. destruct (C54_discrete_partial (-1000) ex_key2 ex_grad (coeff_new 1) false m 1 1 sets') as (vs & E & L & A & _); auto; try lra.
  - intros k c (cs & [[= <- <-]|[[= <- <-]|[]]] & [<-|[]]); cbn; lra.
  - intros k c (cs & [[= <- <-]|[[= <- <-]|[]]] & [<-|[]]); reflexivity.
  - destruct vs as [|v [|? ?]]; try discriminate. exists v. split; [exact E|].
    destruct (A (1, 3)%nat (ex_contact (-4) CCNone CCNone 2)) as (v' & [<-|[]] & H).
    { exists [ex_contact (-4) CCNone CCNone 2]. split; cbn; auto. }
    cbn in H. lra.
Qed.

(** ** C53 at the boundary of the filter *)
(** A contact exactly at margin + buffer passes the filter, but the average then is computed with a
    maximal error of zero, which the code asserts not to happen. *)
Theorem C53_boundary_refuted : forall lowest, lowest < -100 ->
  exists (margin buffer : R) c r,
  removeInvalidContactResults margin buffer false false [c] = [c] /\
  gr_err r = margin - ct_dist c /\ gr_errb r = margin + buffer - ct_dist c /\
  forall k sh co ct n, discrete_jac_row lowest (built lowest k sh co ct [r]) n = Undef.
Proof.
  intros lowest Hl. exists 1, 1, (ex_contact 2 CCNone CCNone 1), (ex_res (-1) ex_link2 ex_none).
  split; [|split; [cbn; lra|split; [cbn; lra|]]].
  - unfold removeInvalidContactResults, invalid_contact. cbn -[Rltb]. rnum. rewrite (proj2 (Rltb_false _ _)) by lra. reflexivity.
  - intros k sh co ct n. set (r := ex_res (-1) ex_link2 ex_none).
    destruct (getters lowest k sh co ct [r]) as (_ & _ & G); [lra| |].
    { intros r' [<-|[]]. cbn. lra. }
    destruct (G false) as [_ [[F _]|(e & E & M & _)]]; [discriminate|]. cbn in M. destruct M as [<-|[]].
    unfold discrete_jac_row. rewrite E. cbn [obind]. unfold wavg. rewrite built_results.
    change (@nltb R _) with Rltb. rewrite (proj2 (Rltb_false _ _)) by (cbn; lra). reflexivity.
Qed.
Print Assumptions C53_boundary_refuted.

(** ** C79 *)
Lemma single_row lowest k sh c ct r n : lowest < 0 -> lowest / 2 < gr_err r -> lowest / 2 < gr_errb r -> 0 < gr_errb r ->
  (forall i, length (gradient (side (gr_grads r) i)) = n) -> counts_t false r = true ->
  exists v, discrete_jac_row lowest (built lowest k sh c ct [r]) n = Ok (Some v) /\ length v = n /\
  forall j, nth j v 0 = - rsum (fun i => / INR (length (filter (fun i => counts i false r) [false; true])) *
     gscale (side (gr_grads r) i) * nth j (gradient (side (gr_grads r) i)) 0) (filter (fun i => counts i false r) [false; true]).
Proof.
  intros Hn He Heb Hp Hlen Hct.
  assert (Hr : forall r', In r' [r] -> lowest / 2 < gr_err r' /\ lowest / 2 < gr_errb r') by (intros r' [<-|[]]; auto).
  destruct (getters lowest k sh c ct [r] Hn Hr) as (_ & _ & G). destruct (G false) as [_ G1].
  cbn [filter] in G1. rewrite Hct in G1. destruct G1 as [[G1 _]|(me & E & M & _)]; [discriminate|].
  cbn in M. destruct M as [<-|[]].
  destruct (C53_weighted_average lowest k sh c ct [r] false (gr_errb r) n Hn Hr) as (v & E1 & E2 & _ & E4); auto.
  { intros r' i [<-|[]]. apply Hlen. }
  { intros r' _ F. discriminate F. }
  unfold discrete_jac_row. rewrite E. cbn [obind]. rewrite E1. cbn [obind]. eexists. split; [reflexivity|].
  split; [rewrite map_length; exact E2|]. intros j.
  assert (Nth : forall l, nth j (map (fun x : R => nmul (nopp none_) x) l) 0 = - nth j l 0).
  { intros l. replace 0 with ((nmul (nopp none_) 0 : R)) at 1 by (rnum; ring). rewrite map_nth. rnum. ring. }
  rewrite Nth. f_equal. unfold wentries in E4. cbn [flat_map existsb app] in E4. unfold wgrad in E4. cbn [side] in E4.
  change (has_gradient (fst (gr_grads r)) && negb (cceqb (gcc (fst (gr_grads r))) CCTime1)) with (counts false false r) in E4.
  change (has_gradient (snd (gr_grads r)) && negb (cceqb (gcc (snd (gr_grads r))) CCTime1)) with (counts true false r) in E4.
  rewrite (proj2 (Rltb_true 0 (gr_errb r))) in E4 by exact Hp. rewrite Rmax_left in E4 by lra.
  assert (Nm : forall a l, nth j (map (fun x : R => a * x) l) 0 = a * nth j l 0).
  { intros a l. replace 0 with (a * 0) at 1 by ring. apply (map_nth (fun x => a * x)). }
  unfold counts_t in Hct. destruct (counts false false r) eqn:C0, (counts true false r) eqn:C1; try discriminate Hct;
  cbn [andb orb app] in E4; destruct E4 as (_ & _ & E4); try discriminate; rewrite E4; unfold rsum;
  cbn [filter map fold_right fst snd length side]; rewrite ?C0, ?C1; cbn [filter map fold_right length side INR]; rewrite !Nm; cbn [Rsum fold_right]; field; lra.
Qed.

(** One contact in which exactly one link moves: both discrete constraints use the same row. *)
Theorem C79_partial : forall lowest k sh c ct r n i, lowest < 0 -> lowest / 2 < gr_err r -> lowest / 2 < gr_errb r -> 0 < gr_errb r ->
  (forall i, length (gradient (side (gr_grads r) i)) = n) ->
  counts i false r = true -> has_gradient (side (gr_grads r) (negb i)) = false -> gscale (side (gr_grads r) i) = 1 ->
  exists v, discrete_jac_row lowest (built lowest k sh c ct [r]) n = Ok (Some v) /\ discreteD_jac_row r = Ok v.
Proof.
  intros lowest k sh c ct r n i Hn He Heb Hp Hlen Hc Hno Hsc.
  assert (Hc' : counts (negb i) false r = false) by (unfold counts; rewrite Hno; reflexivity).
  destruct (single_row lowest k sh c ct r n Hn He Heb Hp Hlen) as (v & E & L & F).
  { unfold counts_t. destruct i; cbn [negb] in Hc'; rewrite Hc, ?Hc'; reflexivity. }
  exists v. split; [exact E|].
  assert (Hg : has_gradient (side (gr_grads r) i) = true) by (unfold counts in Hc; apply andb_prop in Hc; tauto).
  assert (D : discreteD_jac_row r = Ok (map (fun x => nmul (nopp none_) x) (gradient (side (gr_grads r) i)))).
  { unfold discreteD_jac_row. destruct i; cbn [side negb] in *; rewrite Hno, Hg; reflexivity. }
  rewrite D. f_equal. apply (nth_ext _ _ 0 0); [rewrite map_length, Hlen, L; reflexivity|].
  intros j _. rewrite F. replace 0 with ((nmul (nopp none_) 0 : R)) at 1 by (rnum; ring). rewrite map_nth. rnum.
  replace (filter (fun i0 => counts i0 false r) [false; true]) with [i].
  - unfold rsum. cbn [map Rsum length]. change (INR 1) with 1. rewrite Hsc. change (0 : Rdefinitions.R) with 0. field.
  - destruct i; cbn [negb] in Hc'; cbn [filter]; rewrite Hc, Hc'; reflexivity.
Qed.
Print Assumptions C79_partial.

Example C79_ex : let r := ex_res 3 (ex_link true [1; 2] CCNone) (ex_link false [0; 0] CCNone) in
  exists v, discrete_jac_row (-1000) (built (-1000) (1, 2)%nat (0, 0)%Z 1 false [r]) 2 = Ok (Some v) /\ discreteD_jac_row r = Ok v.
Proof.
  intros r. apply (C79_partial (-1000) (1, 2)%nat (0, 0)%Z 1 false r 2 false); cbn; try lra; try reflexivity. intros [|]; reflexivity.
Qed.

(** With two moving links the constraint that averages reports half the derivative of the distance
    that the other one reports. *)
Theorem C79_refuted : exists lowest r v w, lowest < 0 /\
  has_gradient (fst (gr_grads r)) = true /\ has_gradient (snd (gr_grads r)) = true /\
  discrete_jac_row lowest (built lowest (1, 2)%nat (0, 0)%Z 1 false [r]) 1 = Ok (Some v) /\
  discreteD_jac_row r = Ok w /\ nth 0 w 0 <> 0 /\ nth 0 v 0 = nth 0 w 0 / 2.
Proof.
  set (r := ex_res 3 (ex_link true [1] CCNone) (ex_link true [2] CCNone)).
  destruct (single_row (-1000) (1, 2)%nat (0, 0)%Z 1 false r 1) as (v & E & L & F);
    [lra|cbn; lra|cbn; lra|cbn; lra|intros [|]; reflexivity|reflexivity|].
  exists (-1000), r, v. eexists. split; [lra|]. split; [reflexivity|]. split; [reflexivity|]. split; [exact E|]. split; [reflexivity|].
  pose proof (F 0%nat) as F0. rewrite F0. unfold rsum. cbn. split; [lra|field].
Qed.
Print Assumptions C79_refuted.

(** ** C81 *)
(** A used row carries the coefficient of its set, *)
Theorem C81_rows_in_use : forall (old : list R) sets i, (i < length old)%nat -> (i < length sets)%nat ->
  length (update_coeffs old sets) = length old /\
  nth_error (update_coeffs old sets) i = option_map (@gs_coeff R) (nth_error sets i).
Proof.
  intros old sets i H1 H2. unfold update_coeffs. split.
  - rewrite app_length, map_length, skipn_length, firstn_length. lia.
  - rewrite nth_error_app1 by (rewrite map_length, firstn_length; lia). rewrite nth_error_map. f_equal.
    rewrite <- (firstn_skipn (length old) sets) at 2. rewrite nth_error_app1 by (rewrite firstn_length; lia). reflexivity.
Qed.
Print Assumptions C81_rows_in_use.

Example C81_ex : update_coeffs [1; 1; 1 : R] [gset_new (-1000) (1, 2)%nat (0, 0)%Z 5 false] = [5; 1; 1].
Proof. reflexivity. Qed.

(** but an unused row keeps the coefficient of whatever set it held before, so the coefficients are
    not determined by the current contacts. *)
Theorem C81_refuted : exists (init : list R) s1 s2 sets,
  update_coeffs (update_coeffs init [s1]) sets <> update_coeffs (update_coeffs init [s2]) sets.
Proof.
  exists [1 : R], (gset_new (-1000) (1, 2)%nat (0, 0)%Z 5 false), (gset_new (-1000) (1, 3)%nat (0, 0)%Z 6 false), [].
  cbn. intros [= E]. lra.
Qed.
Print Assumptions C81_refuted.
