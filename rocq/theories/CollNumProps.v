(** * The numerically differentiated collision constraints (C107-C109) *)
From Coq Require Import List ZArith Bool Arith Reals Lra Lia Permutation.
From Verif Require Import Num NumFacts Common ModelingModel KinModel KinProofs CollisionModel CollisionSpec CollisionProofs CollisionProps CollisionRowProps CollNumModel.
Import ListNotations.
Local Open Scope R_scope.

(** the identity of a set: its link pair and its shapes *)
Definition set_id (s : gset R) : (nat * nat) * (Z * Z) := (gs_key s, gs_shape s).
Definition ided (sets : list (gset R)) : Prop := NoDup (map set_id sets).
(** the error of a pair of shapes in a list of sets: that of its set, minus the buffer if there is none *)
Definition is_error (measure : gset R -> R) (buffer : R) (sets : list (gset R)) (id : (nat * nat) * (Z * Z)) (e : R) : Prop :=
  (exists s, In s sets /\ set_id s = id /\ e = measure s) \/ ((forall s, In s sets -> set_id s <> id) /\ e = - buffer).
(** the measure of every set exists and is [f] *)
Definition measured (measure : gset R -> outcome (option R)) (f : gset R -> R) (sets : list (gset R)) : Prop :=
  forall s, In s sets -> measure s = Ok (Some (f s)).

Lemma same_set_eq a b : same_set a b = true <-> set_id b = set_id a.
Proof.
  unfold same_set, set_id. rewrite andb_true_iff, zpaireqb_eq. unfold paireqb. rewrite andb_true_iff, !Nat.eqb_eq.
  destruct (gs_key a), (gs_key b). cbn. split; [intros [[-> ->] ->]; reflexivity|]. intros E. injection E as -> -> ->. auto.
Qed.
Lemma gather_map {A B} (f : A -> outcome (option B)) (g : A -> B) l : (forall a, In a l -> f a = Ok (Some (g a))) -> gather (map f l) = Ok (Some (map g l)).
Proof. induction l as [|a l IH]; intros H; [reflexivity|]. cbn. rewrite H by (left; auto). cbn. rewrite IH by (intros; apply H; right; auto). reflexivity. Qed.
Lemma in_firstn {A} n (l : list A) a : In a (firstn n l) -> In a l.
Proof. intros H. rewrite <- (firstn_skipn n l). apply in_or_app. auto. Qed.
(** the error the code compares with *)
Definition err_of (f : gset R -> R) (buffer : R) (sets : list (gset R)) (base : gset R) : R :=
  match find (same_set base) sets with Some it => f it | None => - buffer end.
Lemma err_of_is f buffer sets base : is_error f buffer sets (set_id base) (err_of f buffer sets base).
Proof.
  unfold err_of. destruct (find (same_set base) sets) as [s|] eqn:E.
  - apply find_some in E as [E1 E2]. left. exists s. split; auto. split; [apply same_set_eq; auto|auto].
  - right. split; [|reflexivity]. intros s Hs Hid. pose proof (find_none _ _ E s Hs) as N. apply same_set_eq in Hid. congruence.
Qed.
Lemma is_error_fun f buffer sets id e e' : ided sets -> is_error f buffer sets id e -> is_error f buffer sets id e' -> e = e'.
Proof.
  intros N [(s & H1 & H2 & ->) | [H1 ->]] [(s' & H1' & H2' & ->) | [H1' ->]]; auto.
  - f_equal. unfold ided in N. apply In_nth_error in H1 as [i Hi]. apply In_nth_error in H1' as [j Hj].
    assert (i = j); [|congruence]. apply (proj1 (NoDup_nth_error _) N).
    + apply nth_error_Some. rewrite nth_error_map, Hi. discriminate.
    + rewrite !nth_error_map, Hi, Hj. cbn. congruence.
  - exfalso. apply (H1' s); auto.
  - exfalso. apply (H1 s'); auto.
Qed.
Lemma entry_ok measure f buffer delta new base : measured measure f new -> measure base = Ok (Some (f base)) ->
  num_entry measure buffer delta new base = Ok (Some ((err_of f buffer new base - f base) / delta)).
Proof.
  intros Hn Hb. unfold num_entry, err_of. destruct (find (same_set base) new) as [s|] eqn:E.
  - apply find_some in E as [E1 _]. rewrite (Hn s E1). cbn. rewrite Hb. cbn. rnum. reflexivity.
  - cbn. rewrite Hb. cbn. rnum. do 2 f_equal. unfold Rdiv. ring.
Qed.

Lemma gather_length {A} (l : list (outcome (option A))) r : gather l = Ok (Some r) -> length r = length l.
Proof.
  revert r. induction l as [|a l IH]; intros r H; cbn in H; [injection H as <-; reflexivity|].
  destruct a as [[a|]| |]; cbn in H; try discriminate. destruct (gather l) as [[r'|]| |]; cbn in H; try discriminate.
  injection H as <-. cbn. rewrite (IH r'); auto.
Qed.

(** what the columns of one variable are: entry (i, j) is the forward difference quotient, in joint j, of the error of
    the pair of shapes of row i *)
Lemma columns_spec measure f eval m buffer delta q sets :
  (forall x, length x = length q -> measured measure f (eval x) /\ ided (eval x)) -> measured measure f sets -> sets <> [] ->
  exists cols, num_columns measure eval m buffer delta q sets = Ok (Some cols) /\ length cols = length q /\
  forall j, (j < length q)%nat -> length (nth j cols []) = Nat.min m (length sets) /\
  forall i s e', (i < m)%nat -> nth_error sets i = Some s ->
    is_error f buffer (eval (upd q j (nth j q 0 + delta))) (set_id s) e' ->
    nth i (nth j cols []) 0 = (e' - f s) / delta.
Proof.
  intros He Hs Hne. unfold num_columns. destruct sets as [|s0 sets0] eqn:Es; [congruence|]. rewrite <- Es in *. clear Hne.
  pose (g j s := (err_of f buffer (eval (upd q j (nth j q 0 + delta))) s - f s) / delta).
  rewrite (gather_map _ (fun j => map (g j) (firstn m sets))).
  2:{ intros j Hj. apply gather_map. intros s Hin. apply entry_ok; [apply He; apply upd_length|]. apply Hs. eapply in_firstn; eauto. }
  eexists. split; [reflexivity|]. rewrite map_length, seq_length. split; [reflexivity|]. intros j Hj. rewrite nth_map_seq by auto.
  split; [rewrite map_length, firstn_length; reflexivity|]. intros i s e' Hi Hsi Herr.
  assert (Hn : nth_error (map (g j) (firstn m sets)) i = Some (g j s)).
  { rewrite nth_error_map. assert (nth_error (firstn m sets) i = Some s) as ->; [|reflexivity].
    rewrite <- Hsi. rewrite <- (firstn_skipn m sets) at 2. symmetry. apply nth_error_app1. rewrite firstn_length.
    assert (i < length sets)%nat by (apply nth_error_Some; congruence). lia. }
  rewrite (nth_error_nth _ _ _ Hn). unfold g. f_equal. f_equal.
  destruct (He (upd q j (nth j q 0 + delta)) ltac:(apply upd_length)) as [_ Hid].
  eapply is_error_fun; eauto. apply err_of_is.
Qed.
Lemma values_spec measure f m buffer sets : measured measure f sets ->
  exists vs, num_values measure m buffer sets = Ok (Some vs) /\ length vs = m /\
  forall i, (i < m)%nat -> nth i vs 0 = match nth_error sets i with Some s => f s | None => - buffer end.
Proof.
  intros Hs. unfold num_values. rewrite (gather_map _ f) by (intros s Hin; apply Hs; eapply in_firstn; eauto). cbn.
  eexists. split; [reflexivity|]. unfold pad. rewrite app_length, repeat_length, map_length, firstn_length. split; [lia|].
  intros i Hi. destruct (nth_error sets i) as [s|] eqn:E.
  - assert (i < length sets)%nat by (apply nth_error_Some; congruence). rewrite app_nth1 by (rewrite map_length, firstn_length; lia).
    assert (nth_error (map f (firstn m sets)) i = Some (f s)) as Hn; [|apply (nth_error_nth _ _ _ Hn)].
    rewrite nth_error_map. assert (nth_error (firstn m sets) i = Some s) as ->; [|reflexivity].
    rewrite <- E. rewrite <- (firstn_skipn m sets) at 2. symmetry. apply nth_error_app1. rewrite firstn_length. lia.
  - apply nth_error_None in E. rewrite app_nth2 by (rewrite map_length, firstn_length; lia).
    rewrite map_length, firstn_length. rnum.
    assert (K : forall n k, (k < n)%nat -> nth k (repeat (- buffer) n) 0 = - buffer).
    { induction n as [|n IH]; intros k Hk; [lia|]. destruct k; [reflexivity|]. cbn. apply IH. lia. }
    apply K. lia.
Qed.

(** C107: after update() at q, with rows for m pairs: value i is the error of the i-th pair of shapes (minus the
    buffer beyond the last), and entry (i, j) of the Jacobian is the forward difference quotient of that pair's error,
    which is minus the buffer once the pair has left the margin, in joint j *)
Theorem C107_discrete : forall lowest (eval : list R -> list (gset R)) f m buffer delta q,
  (forall x, length x = length q -> measured (num_measure_discrete lowest) f (eval x) /\ ided (eval x)) -> eval q <> [] ->
  exists vs cols, num_values (num_measure_discrete lowest) m buffer (eval q) = Ok (Some vs) /\
  num_discrete_jac lowest eval m buffer delta q (eval q) = Ok (Some cols) /\ length vs = m /\ length cols = length q /\
  forall i s, (i < m)%nat -> nth_error (eval q) i = Some s ->
    is_error f buffer (eval q) (set_id s) (nth i vs 0) /\
    forall j e', (j < length q)%nat -> is_error f buffer (eval (upd q j (nth j q 0 + delta))) (set_id s) e' ->
    nth i (nth j cols []) 0 = (e' - nth i vs 0) / delta.
Proof.
  intros lowest eval f m buffer delta q He Hne. destruct (He q eq_refl) as [Hm _].
  destruct (values_spec _ f m buffer _ Hm) as (vs & V1 & V2 & V3).
  destruct (columns_spec _ f eval m buffer delta q _ He Hm Hne) as (cols & C1 & C2 & C3).
  exists vs, cols. repeat (split; [assumption|]). intros i s Hi Hs. pose proof (V3 i Hi) as Vi. rewrite Hs in Vi. rewrite Vi. split.
  - left. exists s. split; [eapply nth_error_In; eauto|auto].
  - intros j e' Hj He'. destruct (C3 j Hj) as [_ K]. eapply K; eauto.
Qed.
Print Assumptions C107_discrete.

(** C107, with the sets a discrete evaluator makes (the largest first if there are more than m): every contact having a
    moving link, value i is the greatest error among the contacts of the i-th pair of shapes *)
Theorem C107_evaluator : forall lowest key (grad : list R -> nat * nat -> contact R -> gres R) d (contacts : list R -> list ((nat * nat) * list (contact R)))
    (eval : list R -> list (gset R)) m buffer delta q,
  lowest < 0 ->
  (forall x, may_sort (fun a b => cmp_discrete a b = true) m (all_sets lowest key (grad x) d false (contacts x)) (eval x)) ->
  (forall x, NoDup (map fst (contacts x))) ->
  (forall x k c, length x = length q -> contact_in (contacts x) k c ->
     lowest / 2 < gr_err (grad x k c) /\ lowest / 2 < gr_errb (grad x k c) /\ counts_t false (grad x k c) = true) ->
  eval q <> [] ->
  exists (f : gset R -> R) vs cols, num_values (num_measure_discrete lowest) m buffer (eval q) = Ok (Some vs) /\
  num_discrete_jac lowest eval m buffer delta q (eval q) = Ok (Some cols) /\
  (forall x s, length x = length q -> In s (eval x) -> is_max (map (@gr_err R) (gs_results s)) (f s)) /\
  forall i s j e', (i < m)%nat -> nth_error (eval q) i = Some s -> (j < length q)%nat ->
    is_error f buffer (eval (upd q j (nth j q 0 + delta))) (set_id s) e' ->
    nth i vs 0 = f s /\ nth i (nth j cols []) 0 = (e' - f s) / delta.
Proof.
  intros lowest key grad d contacts eval m buffer delta q Hl Hev Hnd Hc Hne.
  pose (f s := match num_measure_discrete lowest s with Ok (Some e) => e | _ => 0 end).
  assert (M : forall x s, length x = length q -> In s (eval x) -> exists e, num_measure_discrete lowest s = Ok (Some e) /\ is_max (map (@gr_err R) (gs_results s)) e).
  { intros x s Lx Hs. eapply Permutation_in in Hs; [|apply Permutation_sym; eapply may_sort_perm; apply Hev].
    apply sets_in in Hs as (k & cs & c & H1 & H2 & ->).
    unfold group. set (rs := map (grad x k) (filter (fun c0 => zpaireqb (shape_key key c0) (shape_key key c)) cs)).
    set (co := getCollisionCoeff d (fst k) (snd k)). set (sh := shape_key key c).
    assert (Hrs : forall r, In r rs -> lowest / 2 < gr_err r /\ lowest / 2 < gr_errb r /\ counts_t false r = true).
    { intros r Hr. unfold rs in Hr. apply in_map_iff in Hr as (c' & <- & Hc'). apply filter_In in Hc' as [Hc' _]. apply (Hc x k c' Lx). exists cs. auto. }
    assert (Hf : filter (counts_t false) rs = rs).
    { clear - Hrs. induction rs as [|r rs IH]; [reflexivity|]. cbn [filter]. rewrite (proj2 (proj2 (Hrs r (or_introl eq_refl)))). f_equal. apply IH. intros; apply Hrs; right; auto. }
    destruct (getters lowest k sh co false rs Hl) as (_ & _ & C); [intros r Hr; destruct (Hrs r Hr) as (A & B & _); auto|].
    destruct (C false) as [[[F _] | D] _].
    - rewrite Hf in F. exfalso. apply map_eq_nil in F. unfold rs in F. apply map_eq_nil in F.
      assert (In c (filter (fun c0 => zpaireqb (shape_key key c0) (shape_key key c)) cs)) as Hin by (apply filter_In; split; auto; apply zpaireqb_eq; auto).
      rewrite F in Hin. destruct Hin.
    - destruct D as (e & E & Hmax). exists e. split; [exact E|]. rewrite built_results. rewrite Hf in Hmax. exact Hmax. }
  assert (Hf : forall x, length x = length q -> measured (num_measure_discrete lowest) f (eval x)).
  { intros x Lx s Hs. destruct (M x s Lx Hs) as (e & E & _). unfold f. rewrite E. reflexivity. }
  assert (Hid : forall x, ided (eval x)).
  { intros x. unfold ided. eapply Permutation_NoDup; [apply Permutation_map; eapply may_sort_perm; apply (Hev x)|]. apply sets_nodup. auto. }
  destruct (C107_discrete lowest eval f m buffer delta q) as (vs & cols & H1 & H2 & H3 & H4 & H5); auto.
  exists f, vs, cols. split; [auto|]. split; [auto|]. split.
  - intros x s Lx Hs. destruct (M x s Lx Hs) as (e & E & Hm). unfold f. rewrite E. auto.
  - intros i s j e' Hi Hs Hj He'. destruct (H5 i s Hi Hs) as [K1 K2].
    assert (E : nth i vs 0 = f s).
    { eapply is_error_fun; [|exact K1|left; exists s; split; [eapply nth_error_In; eauto|auto]]. auto. }
    split; [auto|]. rewrite <- E. eapply K2; eauto.
Qed.
Print Assumptions C107_evaluator.

(** two links: one contact of error q0 - 2 q1, one that is only there while q0 <= 1 *)
Definition ex_nset (k : nat * nat) (e : R) : gset R := built (-1000) k (0, 0)%Z 1 false [ex_res e ex_link2 ex_none].
Definition ex_err (s : gset R) : R := match gs_results s with r :: _ => gr_err r | [] => 0 end.
Definition clip (x : R) : R := Rmax (-100) (Rmin 100 x).
Lemma clip_range x : -100 <= clip x <= 100.
Proof. unfold clip. split; [apply Rmax_l|]. apply Rmax_lub; [lra|apply Rmin_l]. Qed.
Lemma clip_id x : -100 <= x <= 100 -> clip x = x.
Proof. intros H. unfold clip. rewrite Rmin_right, Rmax_right; lra. Qed.
Definition ex_neval (x : list R) : list (gset R) :=
  ex_nset (1, 2)%nat (clip (nth 0 x 0 - 2 * nth 1 x 0)) :: (if Rle_dec (nth 0 x 0) 1 then [ex_nset (1, 3)%nat 3] else []).
Lemma ex_nset_measure k e : -100 <= e -> num_measure_discrete (-1000) (ex_nset k e) = Ok (Some e).
Proof.
  intros He. destruct (getters (-1000) k (0, 0)%Z 1 false [ex_res e ex_link2 ex_none]) as (_ & _ & G); [lra| |].
  { intros r [<- | []]. cbn. lra. }
  destruct (G false) as [[[F _] | (v & E & [[M | []] _])] _]; [discriminate F|]. cbn in M. subst v. exact E.
Qed.
Example C107_ex : exists vs cols, num_values (num_measure_discrete (-1000)) 3 1 (ex_neval [1; 2]) = Ok (Some vs) /\
  num_discrete_jac (-1000) ex_neval 3 1 (1 / 2) [1; 2] (ex_neval [1; 2]) = Ok (Some cols) /\
  nth 0 vs 0 = -3 /\ nth 0 (nth 0 cols []) 0 = 1 /\ nth 0 (nth 1 cols []) 0 = -2 /\ nth 1 vs 0 = 3 /\ nth 1 (nth 0 cols []) 0 = -8.
Proof.
  destruct (C107_discrete (-1000) ex_neval ex_err 3 1 (1 / 2) [1; 2]) as (vs & cols & H1 & H2 & _ & _ & H5).
  - intros x _. split.
    + intros s Hs. unfold ex_neval in Hs. destruct Hs as [<- | Hs].
      * apply ex_nset_measure. apply clip_range.
      * destruct (Rle_dec (nth 0 x 0) 1); [|destruct Hs]. destruct Hs as [<- | []]. apply (ex_nset_measure (1, 3)%nat 3). lra.
    + unfold ided, ex_neval. destruct (Rle_dec (nth 0 x 0) 1); cbn; repeat constructor; cbn; intuition discriminate.
  - discriminate.
  - exists vs, cols. split; [exact H1|]. split; [exact H2|].
    assert (N0 : nth_error (ex_neval [1; 2]) 0 = Some (ex_nset (1, 2)%nat (-3))).
    { unfold ex_neval. cbn [nth nth_error]. do 2 f_equal. rewrite clip_id; lra. }
    assert (N1 : nth_error (ex_neval [1; 2]) 1 = Some (ex_nset (1, 3)%nat 3)).
    { unfold ex_neval. cbn [nth nth_error]. destruct (Rle_dec 1 1); [reflexivity|lra]. }
    destruct (H5 0%nat _ ltac:(lia) N0) as [A0 B0]. destruct (H5 1%nat _ ltac:(lia) N1) as [A1 B1].
    assert (Hid : ided (ex_neval [1; 2])).
    { unfold ided, ex_neval. destruct (Rle_dec (nth 0 [1; 2] 0) 1); cbn; repeat constructor; cbn; intuition discriminate. }
    assert (E0 : nth 0 vs 0 = -3).
    { eapply is_error_fun; [exact Hid|exact A0|]. left. exists (ex_nset (1, 2)%nat (-3)). split; [apply (nth_error_In _ 0 N0)|]. split; reflexivity. }
    assert (E1 : nth 1 vs 0 = 3).
    { eapply is_error_fun; [exact Hid|exact A1|]. left. exists (ex_nset (1, 3)%nat 3). split; [apply (nth_error_In _ 1 N1)|]. split; reflexivity. }
    rewrite E0 in *. rewrite E1 in *. cbn [upd nth] in B0, B1.
    split; [auto|]. split.
    { rewrite (B0 0%nat (1 + 1 / 2 - 2 * 2)); [field|cbn; lia|]. left. eexists. split; [left; reflexivity|]. split; [reflexivity|]. cbn. rewrite clip_id; lra. }
    split.
    { rewrite (B0 1%nat (1 - 2 * (2 + 1 / 2))); [field|cbn; lia|]. left. eexists. split; [left; reflexivity|]. split; [reflexivity|]. cbn. rewrite clip_id; lra. }
    split; [auto|].
    rewrite (B1 0%nat (- (1))); [field|cbn; lia|]. right. split; [|reflexivity]. intros s Hs. unfold ex_neval in Hs. cbn [upd nth] in Hs.
    destruct (Rle_dec (1 + 1 / 2) 1); [lra|]. destruct Hs as [<- | []]. discriminate.
Qed.

(** two contacts between the same shapes, at distances -q and 1 - q: the greater error is q *)
Definition ex_ncontacts (x : list R) : list ((nat * nat) * list (contact R)) :=
  [((1, 2)%nat, [ex_contact (1 - clip (nth 0 x 0)) CCNone CCNone 1; ex_contact (- clip (nth 0 x 0)) CCNone CCNone 2])].
Definition ex_nsets (x : list R) : list (gset R) := all_sets (-1000) ex_key2 ex_grad (coeff_new 1) false (ex_ncontacts x).
Example C107_evaluator_ex : exists vs cols, num_values (num_measure_discrete (-1000)) 1 1 (ex_nsets [2]) = Ok (Some vs) /\
  num_discrete_jac (-1000) ex_nsets 1 1 (1 / 2) [2] (ex_nsets [2]) = Ok (Some cols) /\ nth 0 vs 0 = 2 /\ nth 0 (nth 0 cols []) 0 = 1.
Proof.
  assert (M : forall x f, is_max (map (@gr_err R) (map (ex_grad (1, 2)%nat) (snd (hd ((0, 0)%nat, []) (ex_ncontacts x))))) f -> f = clip (nth 0 x 0)).
  { intros x f [[<- | [<- | []]] K]; cbn; [|lra]. specialize (K (- - clip (nth 0 x 0)) ltac:(right; left; reflexivity)). cbn in K. lra. }
  destruct (C107_evaluator (-1000) ex_key2 (fun _ => ex_grad) (coeff_new 1) ex_ncontacts ex_nsets 1 1 (1 / 2) [2]) as (f & vs & cols & H1 & H2 & H3 & H4).
  - lra.
  - intros x. left. split; [cbn; lia|reflexivity].
  - intros x. cbn. repeat constructor. intros [].
  - intros x k c _ (cs & [[= <- <-] | []] & [<- | [<- | []]]); pose proof (clip_range (nth 0 x 0)); cbn; (split; [lra|split; [lra|reflexivity]]).
  - discriminate.
  - exists vs, cols. split; [exact H1|]. split; [exact H2|].
    assert (F : forall x, length x = 1%nat -> exists s, ex_nsets x = [s] /\ set_id s = ((1, 2)%nat, (0, 0)%Z) /\ f s = clip (nth 0 x 0)).
    { intros x Lx. eexists. split; [reflexivity|]. split; [reflexivity|]. apply M. refine (H3 x _ Lx _). left. reflexivity. }
    destruct (F [2] eq_refl) as (s & S1 & S2 & S3). destruct (F [2 + 1 / 2] eq_refl) as (s' & T1 & T2 & T3).
    cbn [nth] in S3, T3. rewrite clip_id in S3 by lra. rewrite clip_id in T3 by lra.
    destruct (H4 0%nat s 0%nat (2 + 1 / 2)) as [A B]; [lia|rewrite S1; reflexivity|cbn; lia| |].
    { cbn [upd nth]. rewrite T1. left. exists s'. split; [left; reflexivity|]. split; [congruence|auto]. }
    split; [lra|]. rewrite B, S3. field.
Qed.

(** ** C108: the continuous constraint *)
(** Value i is the error of pair i, and the columns of the first variable are the forward differences of those errors;
    missing: the columns of the second variable, which are wrong (C108_second_refuted) *)
Theorem C108_first_partial : forall lowest v0 v1 (eval : list R -> list R -> list (gset R)) f m buffer delta q0 q1,
  length q0 = length q1 ->
  (forall x, length x = length q0 -> measured (num_measure lowest v0 v1) f (eval x q1) /\ ided (eval x q1)) -> eval q0 q1 <> [] ->
  exists vs cols0 cols1, num_values (num_measure lowest v0 v1) m buffer (eval q0 q1) = Ok (Some vs) /\
  num_continuous_jac lowest v0 v1 eval m buffer delta q0 q1 (eval q0 q1) = Ok (Some (cols0, cols1)) /\
  length vs = m /\ length cols0 = length q0 /\ length cols1 = length q1 /\
  forall i s, (i < m)%nat -> nth_error (eval q0 q1) i = Some s ->
    is_error f buffer (eval q0 q1) (set_id s) (nth i vs 0) /\
    forall j e', (j < length q0)%nat -> is_error f buffer (eval (upd q0 j (nth j q0 0 + delta)) q1) (set_id s) e' ->
    nth i (nth j cols0 []) 0 = (e' - nth i vs 0) / delta.
Proof.
  intros lowest v0 v1 eval f m buffer delta q0 q1 L He Hne. destruct (He q0 eq_refl) as [Hm _].
  destruct (values_spec _ f m buffer _ Hm) as (vs & V1 & V2 & V3).
  destruct (columns_spec _ f (fun jv => eval jv q1) m buffer delta q0 _ He Hm Hne) as (cols0 & C1 & C2 & C3).
  destruct (columns_spec (num_measure lowest v0 v1) f (fun jv => eval jv q1) m buffer delta q1 (eval q0 q1)) as (cols1 & D1 & D2 & D3); auto.
  { intros x Lx. apply He. congruence. }
  exists vs, cols0, cols1. split; [assumption|]. split.
  { unfold num_continuous_jac. rewrite C1. cbn. rewrite D1. reflexivity. }
  repeat (split; [assumption|]). intros i s Hi Hs. pose proof (V3 i Hi) as Vi. rewrite Hs in Vi. rewrite Vi. split.
  - left. exists s. split; [eapply nth_error_In; eauto|auto].
  - intros j e' Hj He'. destruct (C3 j Hj) as [_ K]. eapply K; eauto.
Qed.
Print Assumptions C108_first_partial.

(** what the columns of the second variable are: the error with the second state's value, perturbed, as the *first*
    state, minus the error of row i, over delta *)
Theorem C108_second : forall lowest v0 v1 (eval : list R -> list R -> list (gset R)) f m buffer delta q0 q1,
  length q0 = length q1 ->
  (forall x, length x = length q0 -> measured (num_measure lowest v0 v1) f (eval x q1) /\ ided (eval x q1)) -> eval q0 q1 <> [] ->
  exists cols0 cols1, num_continuous_jac lowest v0 v1 eval m buffer delta q0 q1 (eval q0 q1) = Ok (Some (cols0, cols1)) /\
  (q0 = q1 -> cols0 = cols1) /\
  forall i s j e', (i < m)%nat -> nth_error (eval q0 q1) i = Some s -> (j < length q1)%nat ->
    is_error f buffer (eval (upd q1 j (nth j q1 0 + delta)) q1) (set_id s) e' ->
    nth i (nth j cols1 []) 0 = (e' - f s) / delta.
Proof.
  intros lowest v0 v1 eval f m buffer delta q0 q1 L He Hne. destruct (He q0 eq_refl) as [Hm _].
  destruct (columns_spec _ f (fun jv => eval jv q1) m buffer delta q0 _ He Hm Hne) as (cols0 & C1 & C2 & C3).
  destruct (columns_spec (num_measure lowest v0 v1) f (fun jv => eval jv q1) m buffer delta q1 (eval q0 q1)) as (cols1 & D1 & D2 & D3); auto.
  { intros x Lx. apply He. congruence. }
  exists cols0, cols1. split; [unfold num_continuous_jac; rewrite C1; cbn; rewrite D1; reflexivity|]. split.
  - intros E. rewrite E in C1 at 1. rewrite C1 in D1. congruence.
  - intros i s j e' Hi Hs Hj He'. destruct (D3 j Hj) as [_ K]. eapply K; eauto.
Qed.
Print Assumptions C108_second.

(** one pair of links whose error is x0 + 10 x1 *)
Definition ex_cset (e : R) : gset R := built (-1000) (1, 2)%nat (0, 0)%Z 1 true [ex_res e (ex_link true [1] CCBetween) ex_none].
Definition ex_ceval (x0 x1 : list R) : list (gset R) := [ex_cset (clip (nth 0 x0 0 + 10 * nth 0 x1 0))].
Lemma ex_cset_measure v0 v1 e : -100 <= e -> num_measure (-1000) v0 v1 (ex_cset e) = Ok (Some e).
Proof.
  intros He. destruct (getters (-1000) (1, 2)%nat (0, 0)%Z 1 true [ex_res e (ex_link true [1] CCBetween) ex_none]) as (A & _ & G); [lra| |].
  { intros r [<- | []]. cbn. lra. }
  unfold num_measure. destruct (negb v0 && negb v1); [|destruct (negb v0)].
  - destruct A as [[F _] | (v & E & [[M | []] _])]; [discriminate F|]. cbn in M. subst v. exact E.
  - destruct (G false) as [[[F _] | (v & E & [[M | []] _])] _]; [discriminate F|]. cbn in M. subst v. exact E.
  - destruct (G true) as [[[F _] | (v & E & [[M | []] _])] _]; [discriminate F|]. cbn in M. subst v. exact E.
Qed.
Lemma ex_ceval_ok v0 v1 x0 x1 : measured (num_measure (-1000) v0 v1) ex_err (ex_ceval x0 x1) /\ ided (ex_ceval x0 x1).
Proof.
  split; [intros s [<- | []]; apply ex_cset_measure; apply clip_range|]. unfold ided. cbn. repeat constructor. intros [].
Qed.
Example C108_first_ex : exists vs cols0 cols1, num_values (num_measure (-1000) false false) 1 1 (ex_ceval [0] [1]) = Ok (Some vs) /\
  num_continuous_jac (-1000) false false ex_ceval 1 1 (1 / 2) [0] [1] (ex_ceval [0] [1]) = Ok (Some (cols0, cols1)) /\
  nth 0 vs 0 = 10 /\ nth 0 (nth 0 cols0 []) 0 = 1.
Proof.
  destruct (C108_first_partial (-1000) false false ex_ceval ex_err 1 1 (1 / 2) [0] [1]) as (vs & cols0 & cols1 & H1 & H2 & _ & _ & _ & H5); [reflexivity| |discriminate|].
  { intros x _. apply ex_ceval_ok. }
  exists vs, cols0, cols1. split; [exact H1|]. split; [exact H2|].
  destruct (H5 0%nat (ex_cset 10) ltac:(lia)) as [A B].
  { unfold ex_ceval. cbn [nth nth_error]. do 2 f_equal. rewrite clip_id; lra. }
  assert (E : nth 0 vs 0 = 10).
  { eapply is_error_fun; [apply (proj2 (ex_ceval_ok false false [0] [1]))|exact A|]. left. eexists. split; [left; reflexivity|]. split; [reflexivity|]. cbn. rewrite clip_id; lra. }
  split; [exact E|]. rewrite E in B. rewrite (B 0%nat (1 / 2 + 10)); [field|cbn; lia|]. left. eexists. split; [left; reflexivity|]. split; [reflexivity|].
  cbn. rewrite clip_id; lra.
Qed.

(** Although the error of the pair grows ten times as fast as the second state, its entry for the second state is
    1/delta + 1 (100000001 in the code), whichever end is fixed: the difference of the two states, divided by delta,
    enters it *)
Theorem C108_second_refuted : exists (eval : list R -> list R -> list (gset R)) q0 q1 f,
  forall v0 v1 delta, 0 < delta <= 1 ->
  (forall x0 x1, measured (num_measure (-1000) v0 v1) f (eval x0 x1) /\ ided (eval x0 x1)) /\
  exists s cols0 entry, nth_error (eval q0 q1) 0 = Some s /\
  num_continuous_jac (-1000) v0 v1 eval 1 1 delta q0 q1 (eval q0 q1) = Ok (Some (cols0, [[entry]])) /\
  entry = 1 / delta + 1 /\
  forall e', is_error f 1 (eval q0 (upd q1 0 (nth 0 q1 0 + delta))) (set_id s) e' -> (e' - f s) / delta = 10.
Proof.
  exists ex_ceval, [0], [1], ex_err. intros v0 v1 delta Hd. split; [intros; apply ex_ceval_ok|].
  destruct (C108_second (-1000) v0 v1 ex_ceval ex_err 1 1 delta [0] [1]) as (cols0 & cols1 & H1 & _ & H3); [reflexivity| |discriminate|].
  { intros x _. apply ex_ceval_ok. }
  assert (N : nth_error (ex_ceval [0] [1]) 0 = Some (ex_cset 10)).
  { unfold ex_ceval. cbn [nth nth_error]. do 2 f_equal. rewrite clip_id; lra. }
  destruct (columns_spec (num_measure (-1000) v0 v1) ex_err (fun jv => ex_ceval jv [1]) 1 1 delta [1] (ex_ceval [0] [1])) as (c1 & D1 & D2 & D3);
    [intros; apply ex_ceval_ok|apply ex_ceval_ok|discriminate|].
  assert (cols1 = c1) as ->.
  { unfold num_continuous_jac in H1. rewrite D1 in H1.
    destruct (num_columns (num_measure (-1000) v0 v1) (fun jv => ex_ceval jv [1]) 1 1 delta [0] (ex_ceval [0] [1])) as [[a|]| |]; cbn in H1; congruence. }
  specialize (H3 0%nat _ 0%nat (1 + delta + 10) ltac:(lia) N ltac:(cbn; lia)). cbn [upd nth] in H3.
  destruct (D3 0%nat ltac:(cbn; lia)) as [L1 _].
  destruct c1 as [|col [|? ?]]; try discriminate D2. cbn [nth] in L1, H3. destruct col as [|entry [|? ?]]; try discriminate L1.
  exists (ex_cset 10), cols0, entry. split; [exact N|]. split; [exact H1|]. split.
  - cbn [nth] in H3. rewrite H3.
    + cbn. field. lra.
    + left. eexists. split; [left; reflexivity|]. split; [reflexivity|]. cbn. rewrite clip_id; lra.
  - intros e' He'. cbn [upd nth] in He'. destruct He' as [(s & [<- | []] & _ & ->) | [K _]].
    + cbn. rewrite clip_id by lra. field. lra.
    + exfalso. apply (K (ex_cset (clip (nth 0 [0] 0 + 10 * nth 0 [1 + delta] 0)))); [left; reflexivity|reflexivity].
Qed.
Print Assumptions C108_second_refuted.

(** A set with no error at the free end: the analytic constraint reports minus the buffer there, this one throws *)
Theorem C108_throws_refuted : forall lowest buffer, lowest < -100 -> exists s,
  continuous_values lowest false true 1 buffer [s] = Ok (Some [- buffer]) /\
  num_values (num_measure lowest false true) 1 buffer [s] = Ok None.
Proof.
  intros lowest buffer Hl. set (rs := [ex_res 2 (ex_link true [1] CCTime1) ex_none]).
  exists (built lowest (1, 2)%nat (0, 0)%Z 1 true rs).
  destruct (getters lowest (1, 2)%nat (0, 0)%Z 1 true rs) as (_ & _ & G); [lra|intros r [<- | []]; cbn; lra|].
  destruct (G false) as [[[_ E] | (v & _ & [[] _])] _]. split; [reflexivity|].
  unfold num_values. cbn [firstn map gather]. change (num_measure lowest false true) with (getMaxErrorT (T := R) lowest false). rewrite E. reflexivity.
Qed.
Print Assumptions C108_throws_refuted.

(** ** C109: construction and sizes *)
(** Exactly these arguments are accepted, and then there are max_cnt rows, bounds and values *)
Theorem C109_accepts :
  (forall size max_cnt r, num_discrete_new size max_cnt = Ok (Some r) <->
     (exists n, size = Some n /\ (0 < n)%nat) /\ (1 <= max_cnt)%Z /\ r = (Z.to_nat max_cnt, Z.to_nat max_cnt)) /\
  (forall s0 s1 f0 f1 max_cnt r, num_continuous_new s0 s1 f0 f1 max_cnt = Ok (Some r) <->
     (exists n, s0 = Some n /\ s1 = Some n /\ (0 < n)%nat) /\ (f0 = false \/ f1 = false) /\ (1 <= max_cnt)%Z /\ r = (Z.to_nat max_cnt, Z.to_nat max_cnt)).
Proof.
  split.
  - intros [[|n]|] mx r; cbn; try (split; [discriminate|intros [(k & [= <-] & K) _]; lia] || (split; [discriminate|intros [(k & K & _) _]; discriminate])).
    destruct (Z.ltb_spec mx 1); split; try discriminate.
    + intros (_ & K & _). lia.
    + intros [= <-]. split; [eexists; split; [reflexivity|lia]|]. auto.
    + intros (_ & _ & ->). reflexivity.
  - intros [[|n0]|] s1 f0 f1 mx r; cbn.
    + split; [destruct s1; discriminate|]. intros [(k & [= <-] & _ & K) _]. lia.
    + destruct s1 as [n1|]; [|split; [discriminate|intros [(k & _ & K & _) _]; discriminate]].
      destruct n1 as [|n1]; cbn; [split; [discriminate|intros [(k & [= <-] & K & _) _]; discriminate]|].
      destruct (Nat.eqb_spec n0 n1) as [->|Hn]; cbn; [|split; [discriminate|intros [(k & [= <-] & [= K] & _) _]; congruence]].
      destruct f0, f1; cbn; try (split; [discriminate|intros (_ & [K | K] & _); discriminate]);
        (destruct (Z.ltb_spec mx 1); split; [discriminate|intros (_ & _ & K & _); lia|
          intros [= <-]; split; [eexists; repeat split; lia|auto]|intros (_ & _ & _ & ->); reflexivity]).
    + split; [destruct s1; discriminate|intros [(k & K & _) _]; discriminate].
Qed.
Print Assumptions C109_accepts.
Example C109_ex : num_continuous_new (Some 2%nat) (Some 2%nat) true false 3 = Ok (Some (3, 3)%nat) /\ num_continuous_new (Some 2%nat) (Some 2%nat) true true 3 = Ok None /\
  num_discrete_new (Some 2%nat) 0 = Ok None.
Proof. auto. Qed.

(** "contains a nullptr" is reported only when both are null; a single null pointer is dereferenced, and so is that
    of the discrete constraint *)
Theorem C109_null_refuted : num_continuous_new None None false false 1 = Ok None /\
  (exists s0 s1, (s0 = None \/ s1 = None) /\ num_continuous_new s0 s1 false false 1 = Undef) /\
  (forall n f0 f1 m, num_continuous_new None (Some n) f0 f1 m = Undef /\ num_continuous_new (Some (S n)) None f0 f1 m = Undef) /\
  (forall m, num_discrete_new None m = Undef).
Proof. split; [reflexivity|]. split; [exists (Some 1%nat), None; auto|]. split; [split|]; reflexivity. Qed.
Print Assumptions C109_null_refuted.

(** After an accepted setBounds a constraint with several rows has one value and still several Jacobian rows *)
Theorem C109_set_bounds_refuted : forall m, (1 < m)%Z -> exists st st', num_discrete_new (Some 1%nat) m = Ok (Some st) /\
  num_set_bounds st 1 = Ok st' /\ forall buffer sets vs, num_values (num_measure_discrete (-1000)) (snd st') buffer sets = Ok (Some vs) -> length vs <> fst st'.
Proof.
  intros m Hm. exists (Z.to_nat m, Z.to_nat m), (Z.to_nat m, 1%nat). split.
  - cbn. destruct (Z.ltb_spec m 1); [lia|reflexivity].
  - split; [reflexivity|]. intros buffer sets vs H. cbn [fst snd] in *. unfold num_values in H.
    destruct (gather _) as [[l|]| |] eqn:G; cbn in H; try discriminate. injection H as <-.
    apply gather_length in G. rewrite map_length, firstn_length in G. unfold pad. rewrite app_length, repeat_length. lia.
Qed.
Print Assumptions C109_set_bounds_refuted.
