From Coq Require Import List ZArith Bool Arith Reals Lra Lia Permutation.
From Verif Require Import Num NumFacts RSums Common CollisionModel CollisionSpec CollisionProofs.
Import ListNotations.
Local Open Scope R_scope.

(** ** weighted average *)
Lemma vplus_length (a b : list R) : length a = length b -> length (vplus a b) = length a.
Proof. intros E. unfold vplus. rewrite map_length, combine_length, E, Nat.min_id. reflexivity. Qed.
Lemma nth_vplus (a b : list R) k : length a = length b -> nth k (vplus a b) 0 = nth k a 0 + nth k b 0.
Proof.
  revert b k. induction a as [|x a IH]; intros [|y b] k E; try discriminate; [cbn; destruct k; lra|].
  destruct k; cbn; [reflexivity|]. apply IH. injection E; auto.
Qed.
Lemma nth_vscale (c : R) l k : nth k (vscale c l) 0 = c * nth k l 0.
Proof. revert k. induction l as [|x l IH]; intros [|k]; cbn; try lra. apply IH. Qed.
Lemma nth_mapmul (c : R) l k : nth k (map (fun x => c * x) l) 0 = c * nth k l 0.
Proof. apply nth_vscale. Qed.
Lemma vscale_length {T} `{Num T} (c : T) l : length (vscale c l) = length l.
Proof. apply map_length. Qed.

Section Wavg.
  Variables (s : gset R) (me : R) (t : bool) (n : nat).
  Hypothesis Hme : 0 < me.
  Hypothesis Hhas : forall i, 0 < slot_errb s i t -> slot_has s i t = true.
  Let pos i := Rltb 0 (slot_errb s i t).

  Definition entry (r : gres R) (i : bool) : list (R * list R) :=
    if has_gradient (wgrad t r i) && negb (cceqb (gcc (wgrad t r i)) (if t then CCTime0 else CCTime1)) && pos i
    then [(Rmax (gr_errb r) 0, map (fun x => gscale (wgrad t r i) * x) (gradient (wgrad t r i)))] else [].

  (** accumulated state corresponding to a list of entries *)
  Definition acc (es : list (R * list R)) (o : outcome (R * list R * nat)) : Prop :=
    exists v, o = Ok (rsum fst es / me, v, length es) /\ length v = n /\
      forall k, nth k v 0 = rsum (fun e => fst e * nth k (snd e) 0) es / me.

  Lemma acc_link r i es o : length (gradient (wgrad t r i)) = n -> acc es o -> acc (es ++ entry r i) (wavg_link t s me r o i).
  Proof.
    intros Hg (v & -> & Hv & Hk). unfold wavg_link, entry, pos. cbn [obind].
    change (side (if t then gr_cc r else gr_grads r) i) with (wgrad t r i).
    destruct (has_gradient (wgrad t r i) && negb (cceqb (gcc (wgrad t r i)) (if t then CCTime0 else CCTime1))) eqn:E; cbn [andb].
    2:{ rewrite app_nil_r. exists v. auto. }
    change (side (lerrb (side (gs_max s) i)) t) with (slot_errb s i t).
    change (side (has_error (side (gs_max s) i)) t) with (slot_has s i t).
    change (@nltb R _ nzero (slot_errb s i t)) with (Rltb 0 (slot_errb s i t)).
    destruct (Rltb_spec 0 (slot_errb s i t)) as [L|L].
    2:{ rewrite app_nil_r. exists v. auto. }
    rewrite (Hhas i L), nmax_R. rnum.
    assert (W : 0 <= Rmax (gr_errb r) 0 / me).
    { apply Rmult_le_pos; [apply Rmax_r|]. apply Rlt_le, Rinv_0_lt_compat, Hme. }
    destruct (Rltb_spec (Rmax (gr_errb r) 0 / me) 0); [lra|].
    unfold acc. rewrite app_length. cbn [length]. rewrite Nat.add_1_r.
    eexists. split; [|split].
    - rewrite rsum_app, rsum_cons, rsum_nil. cbn [fst]. f_equal. f_equal. f_equal. field. lra.
    - rewrite vplus_length; rewrite ?vscale_length; auto. unfold vscale. rewrite ?map_length. congruence.
    - intros k. rewrite nth_vplus by (rewrite !vscale_length; congruence). rewrite Hk, !nth_vscale.
      rewrite rsum_app, rsum_cons, rsum_nil. cbn [fst snd]. rewrite nth_mapmul. rnum. field. lra.
  Qed.

  Lemma acc_fold rs : (forall r i, In r rs -> length (gradient (wgrad t r i)) = n) -> forall es o, acc es o ->
    acc (es ++ wentries t pos rs) (fold_left (fun st r => fold_left (wavg_link t s me r) [false; true] st) rs o).
  Proof.
    induction rs as [|r rs IH]; intros Hg es o Ho; [cbn; rewrite app_nil_r; exact Ho|].
    cbn [fold_left wentries flat_map]. rewrite app_assoc. apply IH; [intros; apply Hg; cbn; auto|].
    rewrite app_nil_r. change (acc (es ++ (entry r false ++ entry r true)) (wavg_link t s me r (wavg_link t s me r o false) true)).
    rewrite app_assoc. apply acc_link; [apply Hg; cbn; auto|]. apply acc_link; [apply Hg; cbn; auto|exact Ho].
  Qed.

  Lemma wavg_spec : (forall r i, In r (gs_results s) -> length (gradient (wgrad t r i)) = n) ->
    let es := wentries t pos (gs_results s) in
    (es <> [] -> 0 < rsum fst es) ->
    exists v, wavg t s me n = Ok v /\ length v = n /\
      (es = [] -> v = repeat 0 n) /\
      (es <> [] -> forall k, nth k v 0 = rsum (fun e => fst e / rsum fst es * nth k (snd e) 0) es).
  Proof.
    intros Hg es Hpos. unfold wavg. change (@nltb R _) with Rltb. change (@nzero R _) with 0.
    assert (H0 : acc [] (Ok (0, repeat 0 n, 0%nat))).
    { exists (repeat 0 n). split; [|split].
      - rewrite rsum_nil. cbn [length]. do 2 f_equal. f_equal. field. lra.
      - apply repeat_length.
      - intros k. rewrite rsum_nil, nth_repeat. field. lra. }
    apply (acc_fold _ Hg) in H0. destruct H0 as (v & Hf & Hv & Hk). cbn [app] in Hf, Hk. fold es in Hf, Hk.
    destruct (gs_results s) as [|r0 rs0] eqn:Hrs.
    { exists (repeat 0 n). split; [reflexivity|]. split; [apply repeat_length|]. split; [auto|]. intros H. contradiction H. reflexivity. }
    rewrite (proj2 (Rltb_true 0 me) Hme). cbn [negb].
    change (@nzero R R_Num) with 0. rewrite Hf. cbn [obind].
    destruct (Nat.eqb_spec (length es) 0) as [El|El].
    - exists v. split; [reflexivity|]. split; [exact Hv|]. split.
      + intros Ee. apply nth_ext with (d := 0) (d' := 0); [rewrite repeat_length; exact Hv|].
        intros k _. rewrite Hk, nth_repeat, Ee, rsum_nil. field. lra.
      + intros H. destruct es; [contradiction|discriminate].
    - assert (Hne : es <> []) by (intros E; rewrite E in El; apply El; reflexivity).
      specialize (Hpos Hne).
      assert (Ht : 0 < rsum fst es / me) by (apply Rmult_lt_0_compat; [exact Hpos|apply Rinv_0_lt_compat, Hme]).
      rewrite (proj2 (Rltb_true _ _) Ht). cbn [negb].
      eexists. split; [reflexivity|]. split; [rewrite vscale_length; exact Hv|]. split; [contradiction|].
      intros _ k. rewrite nth_vscale, Hk. rnum.
      rewrite (rsum_ext (fun e => fst e / rsum fst es * nth k (snd e) 0) (fun e => / rsum fst es * (fst e * nth k (snd e) 0)))
        by (intros; unfold Rdiv; ring).
      rewrite rsum_scal. field. split; lra.
  Qed.
End Wavg.

(** the entries of the maximal contact have positive weight *)
Definition consistent_ends (t : bool) (r : gres R) : Prop :=
  t = true -> forall i, has_gradient (side (gr_cc r) i) = has_gradient (side (gr_grads r) i) /\
                        gcc (side (gr_cc r) i) = gcc (side (gr_grads r) i).

Lemma counts_wgrad t r i : consistent_ends t r ->
  has_gradient (wgrad t r i) && negb (cceqb (gcc (wgrad t r i)) (if t then CCTime0 else CCTime1)) = counts i t r.
Proof.
  intros H. unfold wgrad, counts. destruct t; [|reflexivity]. destruct (H eq_refl i) as [-> ->]. reflexivity.
Qed.

Lemma entries_in t pos rs e : (forall r, In r rs -> consistent_ends t r) ->
  In e (wentries t pos rs) <-> exists r i, In r rs /\ counts i t r = true /\ pos i = true /\
    e = (Rmax (gr_errb r) 0, map (fun x => gscale (wgrad t r i) * x) (gradient (wgrad t r i))).
Proof.
  intros Hc. unfold wentries. rewrite in_flat_map. split.
  - intros (r & Hr & He). apply in_flat_map in He as (i & _ & He). rewrite counts_wgrad in He by auto.
    destruct (counts i t r && pos i) eqn:E; [|destruct He]. apply andb_prop in E as [E1 E2]. destruct He as [<-|[]].
    exists r, i. auto.
  - intros (r & i & Hr & Hcn & Hp & ->). exists r. split; auto. apply in_flat_map. exists i. split; [destruct i; cbn; auto|].
    rewrite counts_wgrad, Hcn, Hp by auto. cbn. auto.
Qed.

Lemma entries_positive lowest k sh c ct rs t :
  lowest < 0 -> (forall r, In r rs -> lowest / 2 < gr_err r /\ lowest / 2 < gr_errb r) ->
  (forall r, In r rs -> consistent_ends t r) ->
  let s := built lowest k sh c ct rs in
  (forall i, 0 < slot_errb s i t -> slot_has s i t = true) /\
  (forall i, Rltb 0 (slot_errb s i t) = existsb (fun r => counts i t r && Rltb 0 (gr_errb r)) rs) /\
  let es := wentries t (fun i => Rltb 0 (slot_errb s i t)) rs in
  (es <> [] -> 0 < rsum fst es).
Proof.
  intros Hn Hl Hc s.
  assert (Hl' : forall r, In r rs -> lowest <= gr_err r /\ lowest <= gr_errb r) by (intros r Hr; specialize (Hl r Hr); lra).
  assert (HA : forall i, 0 < slot_errb s i t -> exists r, In r rs /\ counts i t r = true /\ gr_errb r = slot_errb s i t).
  { intros i L. destruct (slots_built lowest k sh c ct rs i t Hl') as (_ & B & C). fold s in B, C.
    destruct (filter (counts i t) rs) as [|r0 l] eqn:F.
    - destruct (B eq_refl) as [_ E]. rewrite E in L. lra.
    - destruct C as [_ [C _]]; [discriminate|]. rewrite <- F in C. apply in_map_iff in C as (r & E & Hr).
      apply filter_In in Hr as [Hr Hcr]. exists r. auto. }
  split; [|split].
  - intros i L. destruct (HA i L) as (r & Hr & Hcr & _). destruct (slots_built lowest k sh c ct rs i t Hl') as (A & _).
    fold s in A. rewrite A. apply existsb_exists. eauto.
  - intros i. apply eq_true_iff_eq. rewrite Rltb_true, existsb_exists. split.
    + intros L. destruct (HA i L) as (r & Hr & Hcr & E). exists r. split; auto. rewrite Hcr. apply Rltb_true. lra.
    + intros (r & Hr & E). apply andb_prop in E as [E1 E2]. apply Rltb_true in E2.
      destruct (slots_built lowest k sh c ct rs i t Hl') as (_ & _ & C). fold s in C.
      assert (Hin : In r (filter (counts i t) rs)) by (apply filter_In; auto).
      destruct C as [_ [_ C]]; [intros F; rewrite F in Hin; destruct Hin|].
      apply Rlt_le_trans with (gr_errb r); auto. apply C. apply in_map, Hin.
  - intros es Hne. destruct es as [|e0 l] eqn:Ees; [contradiction|]. fold es in Ees.
    assert (He : In e0 es) by (rewrite Ees; cbn; auto). apply entries_in in He as (r0 & i & Hr0 & Hc0 & Hp & _); auto.
    apply Rltb_true in Hp. destruct (HA i Hp) as (r & Hr & Hcr & E).
    assert (He : In (Rmax (gr_errb r) 0, map (fun x => gscale (wgrad t r i) * x) (gradient (wgrad t r i))) es).
    { apply entries_in; auto. exists r, i. split; [auto|]. split; [auto|]. split; [|reflexivity]. apply Rltb_true, Hp. }
    rewrite <- Ees.
    assert (Hnn : forall e, In e es -> 0 <= fst e).
    { intros e H. apply entries_in in H as (r1 & i1 & _ & _ & _ & ->); auto. apply Rmax_r. }
    clear - He Hnn E Hp. apply in_split in He as (l1 & l2 & Hes). rewrite Hes in *.
    rewrite rsum_app, rsum_cons. cbn [fst].
    assert (0 <= rsum fst l1) by (apply rsum_nonneg; intros; apply Hnn, in_or_app; auto).
    assert (0 <= rsum fst l2) by (apply rsum_nonneg; intros; apply Hnn, in_or_app; cbn; auto).
    pose proof (Rmax_l (gr_errb r) 0). lra.
Qed.

(** ** coefficients *)
Lemma ordered_same a b a' b' : paireqb (ordered_pair a b) (ordered_pair a' b') =
  ((a =? a') && (b =? b') || (a =? b') && (b =? a'))%nat.
Proof.
  unfold ordered_pair, paireqb.
  destruct (Nat.leb_spec a b), (Nat.leb_spec a' b'); cbn [fst snd];
  destruct (Nat.eqb_spec a a'), (Nat.eqb_spec b b'), (Nat.eqb_spec a b'), (Nat.eqb_spec b a'); cbn; auto; lia.
Qed.
Lemma paireqb_eq p q : paireqb p q = true <-> p = q.
Proof. destruct p, q. unfold paireqb. cbn. rewrite andb_true_iff, !Nat.eqb_eq. split; [intros [-> ->]; auto|intros [= -> ->]; auto]. Qed.
Lemma paireqb_refl p : paireqb p p = true. Proof. apply paireqb_eq; auto. Qed.

Lemma pfind_erase {A} k k' (l : list ((nat * nat) * A)) : pfind k (perase k' l) = if paireqb k k' then None else pfind k l.
Proof.
  induction l as [|[q a] l IH]; cbn [perase filter pfind fst]; [destruct (paireqb k k'); reflexivity|].
  destruct (paireqb k' q) eqn:E; cbn [negb pfind].
  - fold (perase k' l). rewrite IH. destruct (paireqb k k') eqn:E1; [reflexivity|].
    destruct (paireqb k q) eqn:E2; [|reflexivity]. apply paireqb_eq in E, E2. subst. rewrite paireqb_refl in E1. discriminate.
  - fold (perase k' l). rewrite IH. destruct (paireqb k k') eqn:E1; [|reflexivity].
    apply paireqb_eq in E1. subst. rewrite E. reflexivity.
Qed.

Lemma coeff_run_get (os : list (coeff_op R)) : forall d a b,
  getCollisionCoeff (coeff_run d os) a b =
  match last_coeff a b os with
  | Some c => c
  | None => match pfind (ordered_pair a b) (cd_table d) with Some c => c | None => last_default (cd_default d) os end
  end.
Proof.
  induction os as [|o os IH]; intros d a b; [reflexivity|].
  change (coeff_run d (o :: os)) with (coeff_run (coeff_step d o) os). rewrite IH.
  destruct o as [c|a' b' c]; cbn [last_coeff last_default]; [reflexivity|].
  destruct (last_coeff a b os); [reflexivity|]. cbn [coeff_step cd_table cd_default pfind].
  rewrite ordered_same. destruct ((a =? a') && (b =? b') || (a =? b') && (b =? a'))%nat eqn:E; [reflexivity|].
  rewrite pfind_erase, ordered_same, E. reflexivity.
Qed.

Lemma existsb_filter_pair k k' l :
  existsb (paireqb k) (filter (fun q => negb (paireqb k' q)) l) = if paireqb k k' then false else existsb (paireqb k) l.
Proof.
  induction l as [|q l IH]; cbn [filter existsb]; [destruct (paireqb k k'); reflexivity|].
  destruct (paireqb k' q) eqn:E; cbn [negb existsb]; rewrite IH.
  - destruct (paireqb k k') eqn:E1; [reflexivity|]. destruct (paireqb k q) eqn:E2; [|reflexivity].
    apply paireqb_eq in E, E2. subst. rewrite paireqb_refl in E1. discriminate.
  - destruct (paireqb k k') eqn:E1; [|reflexivity]. apply paireqb_eq in E1. subst. rewrite E. reflexivity.
Qed.

Lemma coeff_run_zero (os : list (coeff_op R)) : forall d a b,
  isZeroPair (coeff_run d os) a b =
  match last_coeff a b os with Some c => almost_equal c 0 | None => isZeroPair d a b end.
Proof.
  induction os as [|o os IH]; intros d a b; [reflexivity|].
  change (coeff_run d (o :: os)) with (coeff_run (coeff_step d o) os). rewrite IH.
  destruct o as [c|a' b' c]; cbn [last_coeff]; [reflexivity|].
  destruct (last_coeff a b os); [reflexivity|]. unfold isZeroPair. cbn [coeff_step cd_zero].
  change (@nzero R R_Num) with 0.
  destruct (almost_equal c 0) eqn:Ea.
  - destruct (existsb (paireqb (ordered_pair a' b')) (cd_zero d)) eqn:Ex.
    + rewrite <- ordered_same. destruct (paireqb (ordered_pair a b) (ordered_pair a' b')) eqn:E; [|reflexivity].
      apply paireqb_eq in E. rewrite E. congruence.
    + cbn [existsb]. rewrite <- ordered_same. destruct (paireqb (ordered_pair a b) (ordered_pair a' b')); cbn; congruence.
  - rewrite existsb_filter_pair, <- ordered_same. destruct (paireqb (ordered_pair a b) (ordered_pair a' b')); congruence.
Qed.

Lemma almost_equal_zero (c : R) : almost_equal c 0 = true <-> Rabs c <= / 1000000.
Proof.
  unfold almost_equal. rewrite nmax_R. rnum. rewrite Rminus_0_r, Rabs_R0.
  replace (Rdec 1 (-6)) with (/ 1000000) by (unfold Rdec; simpl; lra).
  destruct (Rleb_spec (Rabs c) (/ 1000000)) as [L|L]; [tauto|].
  rewrite Rleb_true. rewrite Rmax_left by (apply Rabs_pos). split; [|lra]. intros H.
  assert (0 < / 1000000) by lra.
  assert (1 / IZR (2 ^ 52) < 1).
  { apply Rmult_lt_reg_r with (IZR (2 ^ 52)); [apply IZR_lt; reflexivity|].
    unfold Rdiv. rewrite Rmult_assoc, Rinv_l by (apply IZR_neq; discriminate). rewrite !Rmult_1_r, Rmult_1_l. apply IZR_lt. reflexivity. }
  assert (Rabs c * (1 / IZR (2 ^ 52)) < Rabs c * 1) by (apply Rmult_lt_compat_l; lra). lra.
Qed.

(** ** interpolation *)
Lemma Rceil_spec x : x <= IZR (Rceil x) < x + 1.
Proof. unfold Rceil. rewrite opp_IZR. destruct (base_Int_part (- x)). lra. Qed.

Lemma nth_map_seq {A} (f : nat -> A) n i d : (i < n)%nat -> nth i (map f (seq 0 n)) d = f i.
Proof.
  intros Hi. rewrite nth_indep with (d' := f 0%nat) by (rewrite map_length, seq_length; lia).
  rewrite map_nth, seq_nth by lia. reflexivity.
Qed.

Lemma lin_spaced_nth cnt (lo hi : R) i : (2 <= cnt)%nat -> (i < cnt)%nat ->
  nth i (lin_spaced cnt lo hi) 0 = lo + INR i * ((hi - lo) / INR (cnt - 1)).
Proof.
  intros Hc Hi. unfold lin_spaced. destruct (Nat.eqb_spec cnt 1); [lia|].
  assert (Hp : INR (cnt - 1) <> 0) by (apply not_0_INR; lia).
  rewrite nth_map_seq by lia. rnum. rewrite <- !INR_IZR_INZ.
  destruct (Rltb _ _).
  - destruct (Nat.eqb_spec i 0) as [->|]; [cbn [INR]; lra|]. rewrite minus_INR by lia. field. exact Hp.
  - destruct (Nat.eqb_spec i (cnt - 1)) as [->|]; [field; exact Hp|reflexivity].
Qed.

Lemma interp_row cnt (a b : list R) r : (2 <= cnt)%nat -> (r < cnt)%nat ->
  nth r (interp_rows cnt a b) [] = map (fun p => fst p + INR r * ((snd p - fst p) / INR (cnt - 1))) (combine a b).
Proof.
  intros Hc Hr. unfold interp_rows.
  rewrite nth_map_seq by lia. apply map_ext. intros p. apply lin_spaced_nth; auto.
Qed.

Lemma map_fst_combine_eq {A B} (a : list A) (b : list B) : length a = length b -> map fst (combine a b) = a.
Proof. revert b. induction a; intros [|? ?] E; cbn in *; try discriminate; f_equal; auto. Qed.
Lemma map_snd_combine_eq {A B} (a : list A) (b : list B) : length a = length b -> map snd (combine a b) = b.
Proof. revert b. induction a; intros [|? ?] E; cbn in *; try discriminate; f_equal; auto. Qed.

Lemma interp_first cnt (a b : list R) : (2 <= cnt)%nat -> length a = length b -> nth 0 (interp_rows cnt a b) [] = a.
Proof.
  intros Hc E. rewrite interp_row by lia. rewrite <- (map_fst_combine_eq a b E) at 2. apply map_ext. intros p. cbn [INR]. lra.
Qed.
Lemma interp_last cnt (a b : list R) : (2 <= cnt)%nat -> length a = length b -> nth (cnt - 1) (interp_rows cnt a b) [] = b.
Proof.
  intros Hc E. rewrite interp_row by lia. rewrite <- (map_snd_combine_eq a b E) at 2. apply map_ext. intros p.
  field. apply not_0_INR. lia.
Qed.

Lemma combine_two_maps {A B C} (f : A -> B) (g : A -> C) l : combine (map f l) (map g l) = map (fun x => (f x, g x)) l.
Proof. induction l; cbn; congruence. Qed.

Lemma interp_step cnt (a b : list R) r : (2 <= cnt)%nat -> (S r < cnt)%nat ->
  Rdist2 (nth r (interp_rows cnt a b) []) (nth (S r) (interp_rows cnt a b) []) = Rdist2 a b / INR (cnt - 1).
Proof.
  intros Hc Hr. rewrite !interp_row by lia. unfold Rdist2. rewrite combine_two_maps, map_map. cbn [fst snd].
  assert (Hp : 0 < INR (cnt - 1)) by (apply lt_0_INR; lia).
  rewrite (map_ext _ (fun p => (/ INR (cnt - 1) * / INR (cnt - 1)) * ((snd p - fst p) * (snd p - fst p)))).
  2:{ intros p. rewrite S_INR. field. lra. }
  rewrite Rsum_map_scale. rewrite sqrt_mult_alt.
  - rewrite sqrt_square by (apply Rlt_le, Rinv_0_lt_compat, Hp). field. lra.
  - apply Rlt_le, Rmult_lt_0_compat; apply Rinv_0_lt_compat, Hp.
Qed.

Lemma vnorm_R (a b : list R) : length a = length b -> vnorm sqrt (vminus b a) = Rdist2 a b.
Proof.
  intros E. unfold vnorm, Rdist2, vminus. rewrite vsum_R. f_equal. f_equal. rewrite map_map.
  revert b E. induction a as [|x a IH]; intros [|y b] E; try discriminate; [reflexivity|]. cbn [combine map fst snd]. rnum.
  f_equal. apply IH. injection E; auto.
Qed.

Lemma seg_cnt_spec (dist lvs : R) : 0 < lvs -> lvs < dist ->
  (3 <= seg_cnt Rceil dist lvs)%nat /\ INR (seg_cnt Rceil dist lvs - 1) = IZR (Rceil (dist / lvs)) /\
  dist / INR (seg_cnt Rceil dist lvs - 1) <= lvs /\ lvs < dist / INR (seg_cnt Rceil dist lvs - 2).
Proof.
  intros Hl Hd. destruct (Rceil_spec (dist / lvs)) as [C1 C2]. unfold seg_cnt. rnum.
  assert (Hq : 1 < dist / lvs).
  { apply Rmult_lt_reg_r with lvs; auto. unfold Rdiv. rewrite Rmult_assoc, Rinv_l by lra. lra. }
  assert (Hz : (2 <= Rceil (dist / lvs))%Z).
  { assert (1 < Rceil (dist / lvs))%Z by (apply lt_IZR; lra). lia. }
  assert (E1 : (Z.to_nat (Rceil (dist / lvs) + 1) - 1)%nat = Z.to_nat (Rceil (dist / lvs))) by lia.
  assert (E2 : (Z.to_nat (Rceil (dist / lvs) + 1) - 2)%nat = Z.to_nat (Rceil (dist / lvs) - 1)) by lia.
  rewrite E1, E2. assert (N1 : INR (Z.to_nat (Rceil (dist / lvs))) = IZR (Rceil (dist / lvs))) by (rewrite INR_IZR_INZ, Z2Nat.id by lia; reflexivity).
  assert (N2 : INR (Z.to_nat (Rceil (dist / lvs) - 1)) = IZR (Rceil (dist / lvs)) - 1) by (rewrite INR_IZR_INZ, Z2Nat.id, minus_IZR by lia; reflexivity).
  rewrite N1, N2. assert (P : 2 <= IZR (Rceil (dist / lvs))) by (apply (IZR_le 2); exact Hz).
  split; [lia|]. split; [reflexivity|].
  assert (Ed : dist = dist / lvs * lvs) by (field; lra).
  split.
  - apply Rmult_le_reg_r with (IZR (Rceil (dist / lvs))); [lra|]. unfold Rdiv at 1. rewrite Rmult_assoc, Rinv_l by lra.
    rewrite Rmult_1_r. rewrite Ed at 1. rewrite (Rmult_comm lvs). apply Rmult_le_compat_r; lra.
  - apply Rmult_lt_reg_r with (IZR (Rceil (dist / lvs)) - 1); [lra|]. unfold Rdiv at 2. rewrite Rmult_assoc, Rinv_l by lra.
    rewrite Rmult_1_r. rewrite Ed at 2. rewrite Rmult_comm. apply Rmult_lt_compat_r; lra.
Qed.

(** ** cantorHash *)
Definition cantor (a b : Z) : Z := ((a + b) * (a + b + 1) / 2 + b)%Z.

Lemma half_even s : ((s * (s + 1)) = 2 * (s * (s + 1) / 2))%Z.
Proof.
  apply Z.div_exact; [lia|]. rewrite Zmult_mod, Zplus_mod.
  assert (H : (s mod 2 = 0 \/ s mod 2 = 1)%Z) by (pose proof (Z.mod_pos_bound s 2); lia).
  destruct H as [-> | ->]; reflexivity.
Qed.

Lemma Int_part_IZR z : Int_part (IZR z) = z.
Proof.
  destruct (base_Int_part (IZR z)) as [H1 H2]. apply le_IZR in H1.
  assert (H3 : IZR z < IZR (Int_part (IZR z) + 1)) by (rewrite plus_IZR; lra). apply lt_IZR in H3. lia.
Qed.

Lemma cantorHash_R a b : (0 <= a)%Z -> (0 <= b)%Z -> (a + b + 1 <= int_max)%Z ->
  cantorHash Int_part a b = Ok (cantor a b).
Proof.
  intros Ha Hb Hm. unfold cantorHash. destruct (Z.ltb_spec a 0); [lia|]. destruct (Z.ltb_spec b 0); [lia|].
  destruct (Z.gtb_spec (a + b + 1) int_max); [lia|]. f_equal. rnum.
  rewrite <- (Int_part_IZR (cantor a b)). f_equal. unfold cantor. rewrite (plus_IZR ((a + b) * (a + b + 1) / 2) b). f_equal.
  assert (E := half_even (a + b)). apply (f_equal IZR) in E. rewrite (mult_IZR 2), (mult_IZR (a + b)) in E. lra.
Qed.

Lemma cantor_inj a b a' b' : (0 <= a -> 0 <= b -> 0 <= a' -> 0 <= b' -> cantor a b = cantor a' b' -> a = a' /\ b = b')%Z.
Proof.
  intros Ha Hb Ha' Hb' E. unfold cantor in E.
  pose proof (half_even (a + b)) as H1. pose proof (half_even (a' + b')) as H2.
  set (h1 := ((a + b) * (a + b + 1) / 2)%Z) in *. set (h2 := ((a' + b') * (a' + b' + 1) / 2)%Z) in *.
  assert (a + b = a' + b')%Z.
  { assert (M : forall s s' : Z, (0 <= s < s' -> s * (s + 1) + 2 * (s + 1) <= s' * (s' + 1))%Z).
    { intros s s' L. replace (s * (s + 1) + 2 * (s + 1))%Z with ((s + 1) * (s + 2))%Z by ring.
      apply Z.mul_le_mono_nonneg; lia. }
    destruct (Z.lt_trichotomy (a + b) (a' + b')) as [L|[L|L]]; auto; exfalso.
    - specialize (M (a + b) (a' + b'))%Z. lia.
    - specialize (M (a' + b') (a + b))%Z. lia. }
  assert (h1 = h2) by (rewrite H in H1; lia). lia.
Qed.
