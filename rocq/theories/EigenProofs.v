(** Proofs about the matrix conversions (over the reals). *)
From Coq Require Import List ZArith Bool Arith Lia Reals Lra Permutation Sorted.
From Verif Require Import Num NumFacts RSums Common ScoExprModel ScoExprProofs EigenModel.
Import ListNotations.
Local Open Scope R_scope.

Notation col_sorted := (fun col : list (nat * R) => StronglySorted lt (map fst col)).

(** ** columns *)
Lemma assoc_sum_cons i p l : assoc_sum i (p :: l) = (if Nat.eqb (fst p) i then snd p else 0) + assoc_sum i l.
Proof. apply rsum_cons. Qed.
Lemma assoc_sum_nil i : assoc_sum i [] = 0.
Proof. reflexivity. Qed.

Lemma col_add_sum i r (v : R) col : assoc_sum i (col_add r v col) = assoc_sum i col + (if Nat.eqb r i then v else 0).
Proof.
  induction col as [|[r' v'] col IH]; cbn [col_add].
  - rewrite assoc_sum_cons, assoc_sum_nil. cbn. ring.
  - destruct (Nat.ltb_spec r r').
    + rewrite !assoc_sum_cons. cbn. ring.
    + destruct (Nat.eqb_spec r r') as [->|Hn].
      * rewrite !assoc_sum_cons. cbn. rnum. destruct (Nat.eqb r' i); ring.
      * rewrite !assoc_sum_cons, IH. cbn. ring.
Qed.

Lemma col_add_bound (P : nat -> Prop) r (v : R) col : P r -> Forall (fun p => P (fst p)) col ->
  Forall (fun p => P (fst p)) (col_add r v col).
Proof.
  intros Hr. induction col as [|[r' v'] col IH]; intros H; cbn [col_add].
  - constructor; auto.
  - inversion H; subst. destruct (Nat.ltb r r'); [constructor; auto|].
    destruct (Nat.eqb r r'); constructor; auto.
Qed.

Lemma sorted_lower r0 (col : list (nat * R)) : StronglySorted lt (r0 :: map fst col) ->
  Forall (fun p => (r0 < fst p)%nat) col.
Proof. intros H. inversion H; subst. rewrite Forall_map in H3. exact H3. Qed.

Lemma col_add_sorted r (v : R) col : col_sorted col -> col_sorted (col_add r v col).
Proof.
  induction col as [|[r' v'] col IH]; intros H; cbn [col_add].
  - cbn. repeat constructor.
  - cbn [map fst] in H. destruct (Nat.ltb_spec r r').
    + cbn [map fst]. constructor; [exact H|]. constructor; [assumption|].
      inversion H as [|? ? Hs Hf]; subst. eapply Forall_impl; [|exact Hf]. cbn. intros; lia.
    + destruct (Nat.eqb_spec r r') as [->|Hn]; [exact H|].
      cbn [map fst]. inversion H as [|? ? Hs Hf]; subst. constructor; [apply IH; exact Hs|].
      rewrite Forall_map in Hf |- *. apply col_add_bound; [lia|exact Hf].
Qed.

Lemma sv_get_sum i (col : list (nat * R)) : col_sorted col -> sv_get i col = assoc_sum i col.
Proof.
  induction col as [|[j v] col IH]; intros H; [reflexivity|]. cbn [sv_get]. rewrite assoc_sum_cons. cbn [fst snd].
  pose proof (sorted_lower _ _ H) as Hl. inversion H; subst.
  rewrite Nat.eqb_sym. destruct (Nat.eqb_spec j i) as [->|Hn].
  - assert (Hz : assoc_sum i col = 0); [|lra].
    clear - Hl. induction col as [|p col IH]; [reflexivity|]. inversion Hl; subst. cbn [fst] in *.
    rewrite assoc_sum_cons, IH by assumption. destruct (Nat.eqb_spec (fst p) i); [lia|ring].
  - rewrite IH by assumption. ring.
Qed.

(** ** the affine part *)
Lemma insert_pair_perm p (l : list (nat * R)) : Permutation (insert_pair p l) (p :: l).
Proof.
  induction l as [|q l IH]; cbn [insert_pair]; [reflexivity|]. destruct (fst p <? fst q)%nat; [reflexivity|].
  rewrite IH. apply perm_swap.
Qed.
Lemma sort_pairs_perm_acc l (acc : list (nat * R)) : Permutation (fold_left (fun acc p => insert_pair p acc) l acc) (l ++ acc).
Proof.
  revert acc; induction l as [|p l IH]; intros acc; cbn; [reflexivity|].
  rewrite IH. rewrite insert_pair_perm. symmetry. apply Permutation_middle.
Qed.
Lemma sort_pairs_perm (l : list (nat * R)) : Permutation (sort_pairs l) l.
Proof. unfold sort_pairs. rewrite sort_pairs_perm_acc, app_nil_r. reflexivity. Qed.

Notation le_sorted := (fun l : list (nat * R) => StronglySorted le (map fst l)).
Lemma insert_pair_sorted p (l : list (nat * R)) : le_sorted l -> le_sorted (insert_pair p l).
Proof.
  induction l as [|q l IH]; intros H; cbn [insert_pair]; [cbn; repeat constructor|].
  cbn [map] in H. inversion H as [|? ? Hs Hf]; subst. destruct (Nat.ltb_spec (fst p) (fst q)).
  - cbn [map]. constructor; [exact H|]. constructor; [lia|]. eapply Forall_impl; [|exact Hf]. cbn; intros; lia.
  - cbn [map]. constructor; [apply IH; exact Hs|].
    rewrite Forall_map in Hf |- *. rewrite (insert_pair_perm p l). constructor; [lia|exact Hf].
Qed.
Lemma sort_pairs_sorted (l : list (nat * R)) : le_sorted (sort_pairs l).
Proof.
  unfold sort_pairs. assert (H : le_sorted (@nil (nat * R))) by constructor. revert H. generalize (@nil (nat * R)).
  induction l as [|p l IH]; intros acc H; cbn; [exact H|]. apply IH. apply insert_pair_sorted. exact H.
Qed.

Lemma rsum_rev {A} (f : A -> R) l : rsum f (rev l) = rsum f l.
Proof. apply rsum_perm. symmetry. apply Permutation_rev. Qed.

(** [accumulate] sums duplicates; the result has increasing indices. *)
Definition acc_inv (l : list (nat * R)) (prev : option nat) (sv : list (nat * R)) : Prop :=
  match prev, sv with
  | None, [] => True
  | Some p, (j, _) :: _ => p = j /\ Forall (fun q => (p <= fst q)%nat) l
  | _, _ => False
  end /\ StronglySorted gt (map fst sv) /\ le_sorted l.

Lemma accumulate_spec l prev (sv : list (nat * R)) : acc_inv l prev sv ->
  (forall i, assoc_sum i (accumulate l prev sv) = assoc_sum i l + assoc_sum i sv) /\
  col_sorted (accumulate l prev sv).
Proof.
  revert prev sv; induction l as [|[k v] l IH]; intros prev sv (Hm & Hs & Hl); cbn [accumulate].
  - split.
    + intros i. unfold assoc_sum. rewrite rsum_rev, rsum_nil. ring.
    + clear - Hs. induction sv as [|p sv IH]; cbn; [constructor|].
      inversion Hs as [|? ? H1 H2]; subst. rewrite map_app. cbn.
      specialize (IH H1). clear - IH H2.
      assert (Hf : Forall (fun q => (q < fst p)%nat) (map fst (rev sv))).
      { rewrite map_rev. apply Forall_rev. eapply Forall_impl; [|exact H2]. cbn. intros; lia. }
      revert IH Hf. generalize (map fst (rev sv)). induction l as [|a l IHl]; intros H Hf; cbn; [repeat constructor|].
      inversion H; subst. inversion Hf; subst. constructor; [auto|]. apply Forall_app. auto.
  - cbn [map fst] in Hl. inversion Hl as [|? ? Hl1 Hl2]; subst. rewrite Forall_map in Hl2.
    destruct prev as [p|]; destruct sv as [|[j w] sv]; try contradiction.
    + destruct Hm as [-> Hf]. inversion Hf as [|? ? Hk Hf']; subst. cbn [fst] in Hk.
      destruct (Nat.eqb_spec k j) as [->|Hn].
      * destruct (IH (Some j) ((j, (w + v)%num) :: sv)) as [H1 H2].
        { split; [split; [reflexivity|exact Hl2]|]. split; [exact Hs|exact Hl1]. }
        split; [|exact H2]. intros i. rewrite H1, !assoc_sum_cons. cbn [fst snd]. rnum. destruct (Nat.eqb j i); ring.
      * destruct (IH (Some k) ((k, v) :: (j, w) :: sv)) as [H1 H2].
        { split; [split; [reflexivity|exact Hl2]|]. split; [|exact Hl1].
          cbn [map fst] in Hs |- *. constructor; [exact Hs|]. inversion Hs as [|? ? _ Hg]; subst.
          constructor; [lia|]. eapply Forall_impl; [|exact Hg]. cbn; intros; lia. }
        split; [|exact H2]. intros i. rewrite H1, !assoc_sum_cons. cbn [fst snd]. ring.
    + destruct (IH (Some k) [(k, v)]) as [H1 H2].
      { split; [split; [reflexivity|exact Hl2]|]. split; [repeat constructor|exact Hl1]. }
      split; [|exact H2]. intros i. rewrite H1, !assoc_sum_cons. cbn [fst snd]. ring.
Qed.

(** non-zero terms as (index, coefficient) pairs *)
Notation nz_terms e := (map (fun cv : R * nat => (snd cv, fst cv))
   (filter (fun cv => negb (neqb (fst cv) nzero)) (combine (a_coeffs e) (a_vars e)))).

Lemma nz_filter_rsum {A} (f : A -> R) (c : A -> R) l : (forall a, c a = 0 -> f a = 0) ->
  rsum f (filter (fun a => negb (Reqb (c a) 0)) l) = rsum f l.
Proof.
  intros H. induction l as [|a l IH]; [reflexivity|]. cbn [filter].
  destruct (Reqb (c a) 0) eqn:E; cbn [negb]; rewrite ?rsum_cons, ?IH; auto.
  rewrite H; [ring|]. rcmp. exact E.
Qed.

Lemma aff_to_sparse_get e n sv : aff_to_sparse e n = Some sv ->
  col_sorted sv /\ (forall i, sv_get i sv = assoc_sum i (nz_terms e)).
Proof.
  unfold aff_to_sparse. destruct (forallb _ _); [|discriminate]. intros [= <-].
  destruct (accumulate_spec (sort_pairs (nz_terms e)) None []) as [H1 H2].
  { split; [exact I|]. split; [constructor|]. apply sort_pairs_sorted. }
  split; [exact H2|]. intros i. rewrite sv_get_sum by exact H2. rewrite H1, assoc_sum_nil.
  unfold assoc_sum. rewrite (rsum_perm _ _ _ (sort_pairs_perm _)). ring.
Qed.

Lemma sv_dense_nth n (sv : list (nat * R)) i : (i < n)%nat -> nth i (sv_dense n sv) 0 = sv_get i sv.
Proof.
  intros H. unfold sv_dense. 
  rewrite (nth_indep _ 0 (sv_get 0 sv)) by (rewrite map_length, seq_length; exact H).
  rewrite (map_nth (fun i => sv_get i sv)), seq_nth by exact H. reflexivity.
Qed.

Lemma in_range_terms (e : aff R) n : wf_aff e ->
  forallb (fun v => (v <? n)%nat) (firstn (length (a_coeffs e)) (a_vars e)) = true <-> Forall (fun v => (v < n)%nat) (a_vars e).
Proof.
  intros H. rewrite H, firstn_all, forallb_forall, Forall_forall.
  split; intros Hx v Hv; specialize (Hx v Hv); apply Nat.ltb_lt; assumption.
Qed.

Lemma terms_in_range (e : aff R) n : Forall (fun v => (v < n)%nat) (a_vars e) ->
  Forall (fun p => (fst p < n)%nat) (nz_terms e).
Proof.
  intros H. rewrite Forall_map. apply Forall_forall. intros [c v] Hin. cbn. apply filter_In in Hin as [Hin _].
  apply in_combine_r in Hin. rewrite Forall_forall in H. auto.
Qed.

Lemma nz_terms_value (e : aff R) x : rsum (fun p => snd p * nth (fst p) x 0) (nz_terms e) = aff_value e x - a_const e.
Proof.
  rewrite rsum_map. cbn [fst snd]. rnum.
  rewrite (nz_filter_rsum (fun cv => fst cv * nth (snd cv) x 0) fst) by (intros a ->; ring).
  rewrite aff_value_sum. ring.
Qed.

Lemma aff_to_sparse_spec (e : aff R) n : wf_aff e ->
  (aff_to_sparse e n = None <-> ~ Forall (fun v => (v < n)%nat) (a_vars e)) /\
  (forall sv, aff_to_sparse e n = Some sv -> forall x,
     bigsum n (fun i => nth i (sv_dense n sv) 0 * nth i x 0) = aff_value e x - a_const e).
Proof.
  intros Hw. split.
  - unfold aff_to_sparse. pose proof (in_range_terms e n Hw) as Hr. destruct (forallb _ _).
    + split; [discriminate|]. intros Hx. exfalso. apply Hx. apply Hr. reflexivity.
    + split; [|reflexivity]. intros _ Hx. apply Hr in Hx. discriminate.
  - intros sv Hs x. pose proof (aff_to_sparse_get e n sv Hs) as [_ Hg].
    assert (Hin : Forall (fun v => (v < n)%nat) (a_vars e)).
    { apply in_range_terms; auto. unfold aff_to_sparse in Hs. destruct (forallb _ _); [reflexivity|discriminate]. }
    rewrite (bigsum_ext n _ (fun i => assoc_sum i (nz_terms e) * nth i x 0)).
    2: { intros i Hi. rewrite sv_dense_nth by exact Hi. rewrite Hg. reflexivity. }
    rewrite (bigsum_assoc n _ (fun i => nth i x 0)) by (apply terms_in_range; exact Hin).
    apply nz_terms_value.
Qed.

(** ** matrices *)
Definition tsum (r c : nat) (ts : list (nat * nat * R)) : R :=
  rsum (fun t => if Nat.eqb (t_row t) r then (if Nat.eqb (t_col t) c then t_val t else 0) else 0) ts.

Lemma build_col_spec ts c : col_sorted (build_col ts c) /\ (forall r, assoc_sum r (build_col ts c) = tsum r c ts) /\
  (forall n, Forall (fun t => (t_row t < n)%nat) ts -> Forall (fun p => (fst p < n)%nat) (build_col ts c)).
Proof.
  unfold build_col.
  assert (H : forall acc : list (nat * R), col_sorted acc ->
    let res := fold_left (fun acc (t : nat * nat * R) => if (t_col t =? c)%nat then col_add (t_row t) (t_val t) acc else acc) ts acc in
    col_sorted res /\ (forall r, assoc_sum r res = assoc_sum r acc + tsum r c ts) /\
    (forall n, Forall (fun t => (t_row t < n)%nat) ts -> Forall (fun p => (fst p < n)%nat) acc -> Forall (fun p => (fst p < n)%nat) res)).
  { induction ts as [|t ts IH]; intros acc Ha; cbn [fold_left].
    - split; [exact Ha|]. split; [intros r; unfold tsum; rewrite rsum_nil; ring|]. auto.
    - destruct (t_col t =? c)%nat eqn:Ec.
      + destruct (IH (col_add (t_row t) (t_val t) acc)) as (H1 & H2 & H3); [apply col_add_sorted; exact Ha|].
        split; [exact H1|]. split.
        * intros r. rewrite H2, col_add_sum. unfold tsum. rewrite rsum_cons, Ec. ring.
        * intros n Hf Hacc. inversion Hf; subst. apply H3; auto.
          apply (col_add_bound (fun r => (r < n)%nat)); auto.
      + destruct (IH acc Ha) as (H1 & H2 & H3). split; [exact H1|]. split.
        * intros r. rewrite H2. unfold tsum. rewrite rsum_cons, Ec. destruct (Nat.eqb (t_row t) r); ring.
        * intros n Hf Hacc. inversion Hf; subst. apply H3; auto. }
  destruct (H []) as (H1 & H2 & H3); [constructor|]. split; [exact H1|]. split.
  - intros r. rewrite H2, assoc_sum_nil. ring.
  - intros n Hf. apply H3; auto.
Qed.

(** matrix with [n] rows *)
Definition wfm (n : nat) (m : list (list (nat * R))) : Prop :=
  Forall (fun col => col_sorted col /\ Forall (fun p => (fst p < n)%nat) col) m.

Lemma wfm_nth n m c : wfm n m -> col_sorted (nth c m []) /\ Forall (fun p => (fst p < n)%nat) (nth c m []).
Proof.
  intros H. unfold wfm in H. rewrite Forall_forall in H.
  destruct (nth_in_or_default c m []) as [Hi| ->]; [apply H; exact Hi|]. split; constructor.
Qed.

Lemma map_seq_nth {A} (f : nat -> A) n c d : (c < n)%nat -> nth c (map f (seq 0 n)) d = f c.
Proof.
  intros H. rewrite (nth_indep _ d (f 0%nat)) by (rewrite map_length, seq_length; exact H).
  rewrite map_nth, seq_nth by exact H. reflexivity.
Qed.

Lemma set_from_triplets_spec n m ts M : @set_from_triplets R _ n m ts = Ok M ->
  length M = m /\ wfm n M /\ (forall r c, (c < m)%nat -> entry M r c = tsum r c ts) /\
  Forall (fun t => (t_row t < n)%nat /\ (t_col t < m)%nat) ts.
Proof.
  unfold set_from_triplets. destruct (forallb _ ts) eqn:Ef; [|discriminate]. intros [= <-].
  rewrite forallb_forall in Ef.
  assert (Hr : Forall (fun t => (t_row t < n)%nat /\ (t_col t < m)%nat) ts).
  { apply Forall_forall. intros t Ht. specialize (Ef t Ht). apply andb_true_iff in Ef as [A B].
    apply Nat.ltb_lt in A, B. auto. }
  split; [rewrite map_length, seq_length; reflexivity|]. split; [|split; [|exact Hr]].
  - unfold wfm. rewrite Forall_map. apply Forall_forall. intros c _.
    destruct (build_col_spec ts c) as (H1 & _ & H3). split; [exact H1|]. apply H3.
    eapply Forall_impl; [|exact Hr]. cbn. intros t [A _]. exact A.
  - intros r c Hc. unfold entry. rewrite map_seq_nth by exact Hc.
    destruct (build_col_spec ts c) as (H1 & H2 & _). rewrite sv_get_sum by exact H1. apply H2.
Qed.

Lemma tsum_app r c a b : tsum r c (a ++ b) = tsum r c a + tsum r c b.
Proof. apply rsum_app. Qed.

Lemma to_triplets_cols r c k (m : list (list (nat * R))) :
  tsum r c (flat_map (fun ic => map (fun rv => (fst rv, fst ic, snd rv)) (snd ic)) (combine (seq k (length m)) m)) =
  if (k <=? c)%nat then assoc_sum r (nth (c - k) m []) else 0.
Proof.
  revert k; induction m as [|col m IH]; intros k; cbn [length seq combine flat_map].
  - destruct (k <=? c)%nat; [|reflexivity]. destruct (c - k)%nat; reflexivity.
  - rewrite tsum_app, IH. cbn [fst snd].
    assert (Hc : tsum r c (map (fun rv => (fst rv, k, snd rv)) col) = if Nat.eqb k c then assoc_sum r col else 0).
    { unfold tsum, assoc_sum. rewrite rsum_map. cbn [t_row t_col t_val fst snd].
      destruct (Nat.eqb k c); [reflexivity|].
      rewrite (rsum_ext _ (fun _ => 0)); [apply rsum_zero|]. intros a _. unfold t_row, t_col. cbn.
      destruct (Nat.eqb (fst a) r); reflexivity. }
    rewrite Hc. clear Hc. destruct (Nat.eqb_spec k c) as [Ek|Hn].
    + subst k. rewrite Nat.leb_refl, Nat.sub_diag. destruct (Nat.leb_spec (S c) c); [lia|]. cbn [nth]. ring.
    + destruct (Nat.leb_spec k c); destruct (Nat.leb_spec (S k) c); try lia; [|ring].
      replace (c - k)%nat with (S (c - S k)) by lia. cbn [nth]. ring.
Qed.
Lemma to_triplets_sum r c m : tsum r c (to_triplets m) = assoc_sum r (nth c m []).
Proof. unfold to_triplets. rewrite to_triplets_cols. cbn [Nat.leb]. rewrite Nat.sub_0_r. reflexivity. Qed.

Lemma tsum_swap r c ts : tsum r c (map (fun t => (t_col t, t_row t, t_val t)) ts) = tsum c r ts.
Proof.
  unfold tsum. rewrite rsum_map. apply rsum_ext. intros t _. unfold t_row, t_col, t_val. cbn.
  destruct (Nat.eqb (snd (fst t)) r), (Nat.eqb (fst (fst t)) c); reflexivity.
Qed.

Lemma to_triplets_range n k (m : list (list (nat * R))) : wfm n m ->
  Forall (fun t => (t_row t < n)%nat /\ (t_col t < k + length m)%nat)
    (flat_map (fun ic => map (fun rv => (fst rv, fst ic, snd rv)) (snd ic)) (combine (seq k (length m)) m)).
Proof.
  revert k; induction m as [|col m IH]; intros k H; cbn [length seq combine flat_map]; [constructor|].
  inversion H as [|? ? [_ Hc] Hm]; subst. apply Forall_app. split.
  - rewrite Forall_map. eapply Forall_impl; [|exact Hc]. cbn. intros p Hp. unfold t_row, t_col. cbn. lia.
  - eapply Forall_impl; [|apply (IH (S k) Hm)]. cbn. intros t [A B]. lia.
Qed.

Lemma transpose_spec n (m : list (list (nat * R))) : length m = n -> wfm n m ->
  length (transpose m) = n /\ wfm n (transpose m) /\
  (forall r c, (c < n)%nat -> entry (transpose m) r c = entry m c r).
Proof.
  intros Hl Hw. unfold transpose. split; [rewrite map_length, seq_length; exact Hl|]. split.
  - unfold wfm. rewrite Forall_map. apply Forall_forall. intros c _.
    match goal with |- context [build_col ?ts c] => destruct (build_col_spec ts c) as (H1 & _ & H3) end.
    split; [exact H1|]. apply H3. rewrite Forall_map. 
    eapply Forall_impl; [|apply (to_triplets_range n 0 m Hw)]. cbn. intros t [_ B]. unfold t_row, t_col in *. cbn in *. lia.
  - intros r c Hc. unfold entry. subst n. rewrite map_seq_nth by exact Hc.
    match goal with |- context [build_col ?ts c] => destruct (build_col_spec ts c) as (H1 & H2 & _) end.
    rewrite sv_get_sum, H2, tsum_swap, to_triplets_sum by exact H1.
    symmetry. apply sv_get_sum. apply (wfm_nth _ m r Hw).
Qed.

Lemma fold_col_add (b a : list (nat * R)) : col_sorted a ->
  let res := fold_left (fun acc rv => col_add (fst rv) (snd rv) acc) b a in
  col_sorted res /\ (forall r, assoc_sum r res = assoc_sum r a + assoc_sum r b) /\
  (forall n, Forall (fun p => (fst p < n)%nat) a -> Forall (fun p => (fst p < n)%nat) b -> Forall (fun p => (fst p < n)%nat) res).
Proof.
  revert a; induction b as [|p b IH]; intros a Ha; cbn [fold_left].
  - split; [exact Ha|]. split; auto. intros r. rewrite assoc_sum_nil. ring.
  - destruct (IH (col_add (fst p) (snd p) a)) as (H1 & H2 & H3); [apply col_add_sorted; exact Ha|].
    split; [exact H1|]. split.
    + intros r. rewrite H2, col_add_sum, assoc_sum_cons. ring.
    + intros n Hn Hb. inversion Hb; subst. apply H3; auto. apply (col_add_bound (fun r => (r < n)%nat)); auto.
Qed.

Lemma combine_nth' {A B} (a : list A) (b : list B) c da db : length a = length b -> nth c (combine a b) (da, db) = (nth c a da, nth c b db).
Proof. apply combine_nth. Qed.

Lemma madd_spec n (a b : list (list (nat * R))) : length a = length b -> wfm n a -> wfm n b ->
  length (madd a b) = length a /\ wfm n (madd a b) /\ (forall r c, entry (madd a b) r c = entry a r c + entry b r c).
Proof.
  intros Hl Ha Hb. unfold madd. split; [rewrite map_length, combine_length; lia|]. split.
  - unfold wfm. rewrite Forall_map. apply Forall_forall. intros [x y] Hin. cbn.
    pose proof (in_combine_l _ _ _ _ Hin) as Hx. pose proof (in_combine_r _ _ _ _ Hin) as Hy.
    unfold wfm in Ha, Hb. rewrite Forall_forall in Ha, Hb.
    destruct (Ha x Hx) as [A1 A2]. destruct (Hb y Hy) as [B1 B2].
    destruct (fold_col_add y x A1) as (H1 & _ & H3). split; [exact H1|]. apply H3; assumption.
  - intros r c. unfold entry.
    change (@nil (nat * R)) with ((fun p : list (nat * R) * list (nat * R) =>
      fold_left (fun acc rv => col_add (fst rv) (snd rv) acc) (snd p) (fst p)) ([], [])) at 1.
    rewrite map_nth, combine_nth by exact Hl. cbn [fst snd].
    destruct (wfm_nth n a c Ha) as [A1 _]. destruct (wfm_nth n b c Hb) as [B1 _].
    destruct (fold_col_add (nth c b []) (nth c a []) A1) as (H1 & H2 & _).
    rewrite sv_get_sum, H2 by exact H1. rewrite !sv_get_sum by assumption. reflexivity.
Qed.

Lemma sv_get_scale k r (col : list (nat * R)) : sv_get r (map (fun rv => (fst rv, k * snd rv)) col) = k * sv_get r col.
Proof. induction col as [|[j v] col IH]; cbn; [ring|]. destruct (r =? j)%nat; auto. Qed.
Lemma mscale_spec k n (m : list (list (nat * R))) : wfm n m ->
  length (mscale k m) = length m /\ wfm n (mscale k m) /\ (forall r c, entry (mscale k m) r c = k * entry m r c).
Proof.
  intros Hw. unfold mscale. split; [apply map_length|]. split.
  - unfold wfm in *. rewrite Forall_map. eapply Forall_impl; [|exact Hw]. cbn. intros col [A B].
    rewrite map_map. cbn. split; [exact A|]. rewrite Forall_map. exact B.
  - intros r c. unfold entry. 
    change (@nil (nat * R)) with (map (fun rv : nat * R => (fst rv, k * snd rv)%num) []) at 1.
    rewrite map_nth. apply sv_get_scale.
Qed.

(** ** quadratic forms *)
Definition qform (n : nat) (m : list (list (nat * R))) (x : list R) : R :=
  bigsum n (fun r => bigsum n (fun c => nth r x 0 * entry m r c * nth c x 0)).

Lemma bigsum_tsum n (ts : list (nat * nat * R)) (f : nat -> nat -> R) :
  Forall (fun t => (t_row t < n)%nat /\ (t_col t < n)%nat) ts ->
  bigsum n (fun r => bigsum n (fun c => tsum r c ts * f r c)) = rsum (fun t => t_val t * f (t_row t) (t_col t)) ts.
Proof.
  induction ts as [|t ts IH]; intros H.
  - rewrite rsum_nil. rewrite (bigsum_ext _ _ (fun _ => 0)); [apply bigsum_zero|]. intros r _.
    rewrite (bigsum_ext _ _ (fun _ => 0)); [apply bigsum_zero|]. intros c _. unfold tsum. rewrite rsum_nil. ring.
  - inversion H as [|? ? [Hr Hc] Ht]; subst. rewrite rsum_cons, <- IH by exact Ht.
    rewrite (bigsum_ext _ _ (fun r => bigsum n (fun c => (if Nat.eqb (t_row t) r then (if Nat.eqb (t_col t) c then t_val t else 0) else 0) * f r c) +
       bigsum n (fun c => tsum r c ts * f r c))).
    2: { intros r _. rewrite <- bigsum_plus. apply bigsum_ext. intros c _. unfold tsum. rewrite rsum_cons. ring. }
    rewrite bigsum_plus. f_equal.
    rewrite (bigsum_single n _ (t_row t) Hr).
    + rewrite Nat.eqb_refl. rewrite (bigsum_single n _ (t_col t) Hc).
      * rewrite Nat.eqb_refl. reflexivity.
      * intros c _ Hn. destruct (Nat.eqb_spec (t_col t) c); [congruence|ring].
    + intros r _ Hn. rewrite (bigsum_ext _ _ (fun _ => 0)); [apply bigsum_zero|]. intros c _.
      destruct (Nat.eqb_spec (t_row t) r); [congruence|ring].
Qed.

Lemma bigsum_swap n m (f : nat -> nat -> R) : bigsum n (fun r => bigsum m (fun c => f r c)) = bigsum m (fun c => bigsum n (fun r => f r c)).
Proof.
  induction n as [|n IH].
  - rewrite bigsum_0. rewrite (bigsum_ext _ _ (fun _ => 0)); [symmetry; apply bigsum_zero|]. intros; apply bigsum_0.
  - rewrite bigsum_S, IH, <- bigsum_plus. apply bigsum_ext. intros c _. rewrite bigsum_S. reflexivity.
Qed.

Lemma quad_triplets_value (q : quad R) x :
  rsum (fun t => t_val t * (nth (t_row t) x 0 * nth (t_col t) x 0)) (quad_triplets q) = quad_value q x - aff_value (q_aff q) x.
Proof.
  unfold quad_triplets. rewrite rsum_map, quad_value_sum. rnum.
  rewrite (nz_filter_rsum _ fst).
  - match goal with |- ?a = ?b + ?c - ?b => replace (b + c - b) with c by ring end.
    apply rsum_ext. intros [c [i j]] _. cbn [fst snd].
    destruct (i =? j)%nat; [|destruct (i <? j)%nat]; unfold t_row, t_col, t_val; cbn; ring.
  - intros [c [i j]] Hc. cbn in Hc. subst c. destruct (i =? j)%nat; [|destruct (i <? j)%nat]; unfold t_val; cbn; ring.
Qed.

Lemma qform_sym n m ts x : length m = n -> wfm n m -> (forall r c, (c < n)%nat -> entry m r c = tsum r c ts) ->
  Forall (fun t => (t_row t < n)%nat /\ (t_col t < n)%nat) ts ->
  qform n (madd m (transpose m)) x = 2 * rsum (fun t => t_val t * (nth (t_row t) x 0 * nth (t_col t) x 0)) ts.
Proof.
  intros Hl Hw He Hr. destruct (transpose_spec n m Hl Hw) as (Ht1 & Ht2 & Ht3).
  destruct (madd_spec n m (transpose m)) as (_ & _ & Ha); [congruence|assumption|assumption|].
  unfold qform.
  rewrite (bigsum_ext n _ (fun r => bigsum n (fun c => tsum r c ts * (nth r x 0 * nth c x 0)) +
     bigsum n (fun c => tsum c r ts * (nth c x 0 * nth r x 0)))).
  2: { intros r Hri. rewrite <- bigsum_plus. apply bigsum_ext. intros c Hc.
       rewrite Ha, Ht3, !He by assumption. ring. }
  rewrite bigsum_plus, (bigsum_swap n n (fun r c => tsum c r ts * (nth c x 0 * nth r x 0))).
  rewrite (bigsum_tsum n ts (fun r c => nth r x 0 * nth c x 0)) by exact Hr. ring.
Qed.

Lemma diag_tsum_zero n x : rsum (fun t => t_val t * (nth (t_row t) x 0 * nth (t_col t) x 0)) (map (fun k => (k, k, 0)) (seq 0 n)) = 0.
Proof. rewrite rsum_map. rewrite (rsum_ext _ (fun _ => 0)); [apply rsum_zero|]. intros k _. unfold t_val. cbn. ring. Qed.

Lemma quad_to_eigen_spec (q : quad R) n halved fd m v : wf_quad q ->
  quad_to_eigen q n halved fd = Ok (Some (m, v)) ->
  length m = n /\ wfm n m /\ length v = n /\
  (forall r c, (r < n)%nat -> (c < n)%nat -> entry m r c = entry m c r) /\
  (forall x, (if halved then / 2 else 1) * qform n m x + bigsum n (fun i => nth i v 0 * nth i x 0) =
     quad_value q x - a_const (q_aff q)).
Proof.
  intros (Hw & H1 & H2). unfold quad_to_eigen. destruct (negb _); [discriminate|].
  destruct (aff_to_sparse (q_aff q) n) as [sv|] eqn:Es; [|discriminate].
  match goal with |- context [set_from_triplets n n ?ts] => set (ts0 := ts) end.
  pose (k := @ndec R _ 5 (-1)). change (@ndec R _ 5 (-1)) with k.
  destruct (set_from_triplets n n ts0) as [m0| |] eqn:Em; cbn [obind]; try discriminate.
  intros [= <- <-].
  destruct (set_from_triplets_spec _ _ _ _ Em) as (Hl & Hwm & He & Hr).
  destruct (transpose_spec n m0 Hl Hwm) as (Ht1 & Ht2 & Ht3).
  destruct (madd_spec n m0 (transpose m0)) as (Ha1 & Ha2 & Ha3); [congruence|assumption|assumption|].
  destruct (mscale_spec k n _ Ha2) as (Hs1 & Hs2 & Hs3).
  assert (Hsym : forall r c, (r < n)%nat -> (c < n)%nat -> entry (madd m0 (transpose m0)) r c = entry (madd m0 (transpose m0)) c r).
  { intros r c Hri Hci. rewrite !Ha3, !Ht3 by assumption. ring. }
  split; [destruct halved; [rewrite Ha1; exact Hl|rewrite Hs1, Ha1; exact Hl]|]. split; [destruct halved; assumption|].
  split; [unfold sv_dense; rewrite map_length, seq_length; reflexivity|]. split.
  { intros r c Hri Hci. destruct halved; [auto|]. rewrite !Hs3, Hsym by assumption. reflexivity. }
  intros x.
  destruct (aff_to_sparse_spec (q_aff q) n Hw) as [_ Hv]. rewrite (Hv _ Es x).
  assert (Hq : qform n (madd m0 (transpose m0)) x = 2 * (quad_value q x - aff_value (q_aff q) x)).
  { rewrite (qform_sym n m0 ts0 x Hl Hwm He Hr). unfold ts0. rewrite rsum_app, quad_triplets_value.
    destruct fd; rnum; [rewrite diag_tsum_zero|rewrite rsum_nil]; ring. }
  destruct halved.
  - rewrite Hq. field.
  - assert (Hq2 : qform n (mscale k (madd m0 (transpose m0))) x = / 2 * qform n (madd m0 (transpose m0)) x).
    { unfold qform. rewrite <- bigsum_scal. apply bigsum_ext. intros r _. rewrite <- bigsum_scal. apply bigsum_ext.
      intros c _. rewrite Hs3. unfold k. rnum. unfold Rdec. simpl. field. }
    rewrite Hq2, Hq. field.
Qed.

Lemma aff_to_sparse_none (e : aff R) n : wf_aff e -> (aff_to_sparse e n = None <-> ~ Forall (fun v => (v < n)%nat) (a_vars e)).
Proof. intros H. apply (aff_to_sparse_spec e n H). Qed.

(** ** constraint matrices *)
Lemma affs_tsum_row r k (es : list (aff R)) c :
  tsum r c (flat_map (fun ie => map (fun cv => (fst ie, snd cv, fst cv))
        (filter (fun cv => negb (neqb (fst cv) nzero)) (combine (a_coeffs (snd ie)) (a_vars (snd ie)))))
      (combine (seq k (length es)) es)) =
  if (k <=? r)%nat then match nth_error es (r - k) with Some e => assoc_sum c (nz_terms e) | None => 0 end else 0.
Proof.
  revert k; induction es as [|e es IH]; intros k; cbn [length seq combine flat_map].
  - unfold tsum. rewrite rsum_nil. destruct (k <=? r)%nat; [|reflexivity]. destruct (r - k)%nat; reflexivity.
  - rewrite tsum_app, IH. cbn [fst snd].
    assert (Hc : tsum r c (map (fun cv => (k, snd cv, fst cv)) (filter (fun cv => negb (neqb (fst cv) nzero)) (combine (a_coeffs e) (a_vars e)))) =
      if Nat.eqb k r then assoc_sum c (nz_terms e) else 0).
    { unfold tsum, assoc_sum. rewrite !rsum_map. unfold t_row, t_col, t_val. cbn [fst snd].
      destruct (Nat.eqb k r); [reflexivity|]. apply rsum_zero. }
    rewrite Hc. clear Hc. destruct (Nat.eqb_spec k r) as [Ek|Hn].
    + subst k. rewrite Nat.leb_refl, Nat.sub_diag. destruct (Nat.leb_spec (S r) r); [lia|]. cbn [nth_error]. ring.
    + destruct (Nat.leb_spec k r); destruct (Nat.leb_spec (S k) r); try lia; [|ring].
      replace (r - k)%nat with (S (r - S k)) by lia. cbn [nth_error]. ring.
Qed.

Lemma affs_range (es : list (aff R)) n k : Forall wf_aff es -> Forall (fun e => Forall (fun v => (v < n)%nat) (a_vars e)) es ->
  Forall (fun t : nat * nat * R => (t_row t < k + length es)%nat /\ (t_col t < n)%nat)
   (flat_map (fun ie => map (fun cv => (fst ie, snd cv, fst cv))
        (filter (fun cv => negb (neqb (fst cv) nzero)) (combine (a_coeffs (snd ie)) (a_vars (snd ie)))))
      (combine (seq k (length es)) es)).
Proof.
  revert k; induction es as [|e es IH]; intros k Hw Hr; cbn [length seq combine flat_map]; [constructor|].
  inversion Hw; subst. inversion Hr as [|? ? Hr1 Hr2]; subst. apply Forall_app. split.
  - rewrite Forall_map. apply Forall_forall. intros [c v] Hin. apply filter_In in Hin as [Hin _].
    apply in_combine_r in Hin. rewrite Forall_forall in Hr1. unfold t_row, t_col. cbn. split; [lia|auto].
  - eapply Forall_impl; [|apply (IH (S k)); assumption]. cbn. intros t [A B]. lia.
Qed.

Lemma affs_forallb (es : list (aff R)) n : Forall wf_aff es ->
  (forallb (fun e => forallb (fun v => (v <? n)%nat) (firstn (length (a_coeffs e)) (a_vars e))) es = true <->
   Forall (fun e => Forall (fun v => (v < n)%nat) (a_vars e)) es).
Proof.
  induction es as [|e es IH]; intros Hw; cbn [forallb]; [split; constructor|].
  inversion Hw; subst. rewrite andb_true_iff, in_range_terms, IH by assumption.
  split; [intros [A B]; constructor; assumption|]. intros H'; inversion H'; auto.
Qed.

Lemma affs_to_eigen_spec (es : list (aff R)) n : Forall wf_aff es ->
  (Forall (fun e => Forall (fun v => (v < n)%nat) (a_vars e)) es ->
   exists m b, affs_to_eigen es n = Ok (Some (m, b)) /\ length m = n /\ wfm (length es) m /\ length b = length es /\
     forall i e x, nth_error es i = Some e ->
       bigsum n (fun c => entry m i c * nth c x 0) - nth i b 0 = aff_value e x) /\
  (~ Forall (fun e => Forall (fun v => (v < n)%nat) (a_vars e)) es -> affs_to_eigen es n = Ok None).
Proof.
  intros Hw. unfold affs_to_eigen. pose proof (affs_forallb es n Hw) as Hf. split.
  - intros Hr. destruct (forallb _ es) eqn:Ef; [|apply Hf in Hr; discriminate].
    destruct (set_from_triplets (length es) n (affs_triplets es)) as [m| |] eqn:Em; cbn [obind].
    + destruct (set_from_triplets_spec _ _ _ _ Em) as (Hl & Hwm & He & _).
      exists m, (map (fun e => (- a_const e)%num) es). split; [reflexivity|]. split; [exact Hl|]. split; [exact Hwm|].
      split; [apply map_length|]. intros i e x Hi.
      assert (Hlen : (i < length es)%nat) by (apply nth_error_Some; congruence).
      rewrite (bigsum_ext n _ (fun c => assoc_sum c (nz_terms e) * nth c x 0)).
      2: { intros c Hc. rewrite He by exact Hc. unfold affs_triplets. rewrite affs_tsum_row. cbn [Nat.leb].
           rewrite Nat.sub_0_r, Hi. reflexivity. }
      rewrite (bigsum_assoc n _ (fun c => nth c x 0)).
      2: { apply terms_in_range. rewrite Forall_forall in Hr. apply Hr. eapply nth_error_In; eauto. }
      rewrite nz_terms_value.
      rewrite (nth_indep _ 0 ((fun e => (- a_const e)%num) e)) by (rewrite map_length; exact Hlen).
      rewrite (map_nth (fun e => (- a_const e)%num)). rewrite (nth_error_nth es i e Hi). rnum. ring.
    + exfalso. revert Em. clear. unfold set_from_triplets. destruct (forallb _ (affs_triplets es)); intros H; discriminate H.
    + exfalso. revert Em. unfold set_from_triplets.
      assert (Hall : forallb (fun t => (t_row t <? length es)%nat && (t_col t <? n)%nat) (@affs_triplets R _ es) = true).
      { apply forallb_forall. intros t Ht. pose proof (affs_range es n 0 Hw Hr) as Hx. rewrite Forall_forall in Hx.
        specialize (Hx t Ht). destruct Hx as [A B]. apply andb_true_iff. split; apply Nat.ltb_lt; assumption. }
      rewrite Hall. discriminate.
  - intros Hn. destruct (forallb _ es) eqn:Ef; [|reflexivity]. exfalso. apply Hn. apply Hf. reflexivity.
Qed.

(** ** upper triangle *)
Lemma upper_cols (m : list (list (nat * R))) k c : (k <= c)%nat ->
  nth (c - k) (map (fun ic => filter (fun rv => (fst rv <=? fst ic)%nat) (snd ic)) (combine (seq k (length m)) m)) [] =
  filter (fun rv => (fst rv <=? c)%nat) (nth (c - k) m []).
Proof.
  revert k; induction m as [|col m IH]; intros k Hk; cbn [length seq combine map].
  - destruct (c - k)%nat; reflexivity.
  - destruct (Nat.eq_dec k c) as [->|Hn].
    + rewrite Nat.sub_diag. reflexivity.
    + replace (c - k)%nat with (S (c - S k)) by lia. cbn [nth]. apply IH. lia.
Qed.
Lemma sv_get_filter r c (col : list (nat * R)) : sv_get r (filter (fun rv => (fst rv <=? c)%nat) col) =
  if (r <=? c)%nat then sv_get r col else 0.
Proof.
  induction col as [|[j v] col IH]; cbn [filter sv_get fst].
  - destruct (r <=? c)%nat; reflexivity.
  - destruct (Nat.leb_spec j c).
    + cbn [sv_get]. rewrite IH. destruct (Nat.eqb_spec r j) as [->|].
      * destruct (Nat.leb_spec j c); [reflexivity|lia].
      * reflexivity.
    + rewrite IH. destruct (Nat.eqb_spec r j) as [->|]; [|reflexivity].
      destruct (Nat.leb_spec j c); [lia|reflexivity].
Qed.
Lemma upper_entry (m : list (list (nat * R))) r c : entry (upper m) r c = if (r <=? c)%nat then entry m r c else 0.
Proof.
  unfold entry, upper. pose proof (upper_cols m 0 c (Nat.le_0_l c)) as H. rewrite Nat.sub_0_r in H. rewrite H.
  apply sv_get_filter.
Qed.

(** ** compressed columns *)
(** what a reader of the three arrays sees at (r, c) *)
Definition csc_get (a : csc R) (r c : nat) : R :=
  rsum (fun k => if Nat.eqb (nth k (c_rows a) 0%nat) r then nth k (c_vals a) 0 else 0)
    (seq (nth c (c_ptrs a) 0%nat) (nth (S c) (c_ptrs a) 0%nat - nth c (c_ptrs a) 0%nat)).

Definition fstcat (m : list (list (nat * R))) := flat_map (map fst) m.
Definition sndcat (m : list (list (nat * R))) := flat_map (map snd) m.

Lemma offsets_nth (m : list (list (nat * R))) s c tail : (c <= length m)%nat ->
  tail = (s + length (flat_map (map fst) m))%nat ->
  nth c (offsets s m ++ [tail]) 0%nat = (s + length (flat_map (map fst) (firstn c m)))%nat.
Proof.
  revert s c; induction m as [|col m IH]; intros s c Hc Ht; cbn [length] in *.
  - assert (c = 0)%nat by lia. subst c. cbn in *. lia.
  - destruct c as [|c]; cbn [offsets app nth firstn flat_map]; [cbn; lia|].
    rewrite IH; [|lia|].
    + rewrite app_length, map_length. lia.
    + subst tail. cbn [flat_map]. rewrite app_length, map_length. lia.
Qed.

Lemma flat_map_split {A B} (f : A -> list B) (m : list A) c d : (c < length m)%nat ->
  flat_map f m = flat_map f (firstn c m) ++ f (nth c m d) ++ flat_map f (skipn (S c) m).
Proof.
  revert c; induction m as [|a m IH]; intros c Hc; cbn [length] in Hc; [lia|].
  destruct c as [|c]; cbn [flat_map firstn nth skipn]; [reflexivity|].
  rewrite <- app_assoc. f_equal. apply IH. lia.
Qed.

Lemma seq_middle {A} (pre mid post : list A) d (f : A -> R) :
  rsum (fun k => f (nth k (pre ++ mid ++ post) d)) (seq (length pre) (length mid)) = rsum f mid.
Proof.
  revert pre; induction mid as [|a mid IH]; intros pre; [reflexivity|]. cbn [length seq].
  rewrite !rsum_cons. f_equal.
  - rewrite app_nth2, Nat.sub_diag by lia. reflexivity.
  - specialize (IH (pre ++ [a])). rewrite app_length in IH. cbn [length] in IH.
    rewrite Nat.add_1_r in IH. rewrite <- IH. apply rsum_ext. intros k _. rewrite <- app_assoc. reflexivity.
Qed.

Lemma flat_fst_snd (m : list (list (nat * R))) : combine (flat_map (map fst) m) (flat_map (map snd) m) = concat m.
Proof.
  induction m as [|col m IH]; [reflexivity|]. cbn [flat_map concat].
  rewrite combine_app by (rewrite !map_length; reflexivity). rewrite IH, combine_fst_snd. reflexivity.
Qed.

Lemma to_csc_get n (m : list (list (nat * R))) r c : wfm n m -> (c < length m)%nat -> csc_get (to_csc m) r c = entry m r c.
Proof.
  intros Hw Hc. unfold csc_get. cbn [to_csc c_rows c_ptrs c_vals].
  rewrite !(offsets_nth m 0) by lia.
  assert (Hsp : firstn (S c) m = firstn c m ++ [nth c m []]).
  { clear - Hc. revert c Hc; induction m as [|a m IH]; intros c Hc; cbn [length] in Hc; [lia|].
    destruct c; cbn; [reflexivity|]. f_equal. apply IH. lia. }
  rewrite Hsp, flat_map_app. cbn [flat_map]. rewrite app_nil_r, app_length, !map_length, !Nat.add_0_l.
  replace (length (flat_map (map fst) (firstn c m)) + length (nth c m []) - length (flat_map (map fst) (firstn c m)))%nat
    with (length (nth c m [])) by lia.
  unfold entry. destruct (wfm_nth n m c Hw) as [Hs _]. rewrite sv_get_sum by exact Hs.
  unfold assoc_sum.
  rewrite <- (seq_middle (concat (firstn c m)) (nth c m []) (concat (skipn (S c) m)) (0%nat, 0)
     (fun p => if Nat.eqb (fst p) r then snd p else 0)).
  assert (Hcat : concat (firstn c m) ++ nth c m [] ++ concat (skipn (S c) m) = concat m).
  { rewrite <- !flat_map_concat_map with (f := fun x => x) || idtac.
    pose proof (flat_map_split (fun x : list (nat * R) => x) m c [] Hc) as Hf.
    rewrite !flat_map_concat_map, !map_id in Hf. symmetry. exact Hf. }
  rewrite Hcat.
  assert (Hlen : length (flat_map (map fst) (firstn c m)) = length (concat (firstn c m))).
  { generalize (firstn c m). clear. intros l. induction l as [|a l IH]; [reflexivity|].
    cbn [flat_map concat]. rewrite !app_length, map_length, IH. reflexivity. }
  rewrite Hlen. apply rsum_ext. intros k _.
  rewrite <- flat_fst_snd. rewrite combine_nth; [reflexivity|].
  clear. induction m as [|a m IH]; [reflexivity|]. cbn [flat_map]. rewrite !app_length, !map_length, IH. reflexivity.
Qed.

(** ** simplify2 *)
Lemma simplify2_spec (inds : list nat) (vals : list R) : length inds = length vals ->
  let '(i', v') := simplify2 inds vals in
  length i' = length v' /\ StronglySorted lt i' /\
  (forall x, rsum (fun p => snd p * nth (fst p) x 0) (combine i' v') = rsum (fun p => snd p * nth (fst p) x 0) (combine inds vals)) /\
  (forall i, assoc_sum i (combine i' v') = assoc_sum i (combine inds vals)).
Proof.
  intros Hlen. unfold simplify2.
  set (step := fun acc (iv : nat * R) => if negb (neqb (snd iv) nzero)
     then (if existsb (fun p => fst p =? fst iv)%nat acc then col_add (fst iv) (snd iv) acc
           else col_add (fst iv) (nzero + snd iv)%num acc) else acc).
  assert (H : forall l (acc : list (nat * R)), col_sorted acc -> let res := fold_left step l acc in
     col_sorted res /\ (forall i, assoc_sum i res = assoc_sum i acc + assoc_sum i l)).
  { induction l as [|p l IH]; intros acc Ha; cbn [fold_left].
    - split; [exact Ha|]. intros i. rewrite assoc_sum_nil. ring.
    - assert (Hst : col_sorted (step acc p) /\ forall i, assoc_sum i (step acc p) = assoc_sum i acc + (if Nat.eqb (fst p) i then snd p else 0)).
      { unfold step. rnum. destruct (Reqb (snd p) 0) eqn:E; cbn [negb].
        - split; [exact Ha|]. intros i. rcmp. rewrite E. destruct (Nat.eqb (fst p) i); ring.
        - destruct (existsb _ _); (split; [apply col_add_sorted; exact Ha|]); intros i; rewrite col_add_sum;
            destruct (Nat.eqb (fst p) i); ring. }
      destruct Hst as [H1 H2]. destruct (IH (step acc p) H1) as [H3 H4]. split; [exact H3|].
      intros i. rewrite H4, H2, assoc_sum_cons. ring. }
  destruct (H (combine inds vals) []) as [H1 H2]; [constructor|].
  set (res := fold_left step (combine inds vals) []) in *.
  split; [rewrite !map_length; reflexivity|]. split; [exact H1|].
  assert (Heq : forall i, assoc_sum i (combine (map fst res) (map snd res)) = assoc_sum i (combine inds vals)).
  { intros i. rewrite combine_fst_snd, H2, assoc_sum_nil. ring. }
  split; [|exact Heq]. intros x.
  assert (Hb : exists n, Forall (fun p => (fst p < n)%nat) (combine (map fst res) (map snd res)) /\ Forall (fun p => (fst p < n)%nat) (combine inds vals)).
  { exists (S (list_max (map fst (combine (map fst res) (map snd res))) + list_max (map fst (combine inds vals)))).
    split.
    - pose proof (proj1 (list_max_le (map fst (combine (map fst res) (map snd res))) _) (Nat.le_refl _)) as Hm.
      rewrite Forall_map in Hm. eapply Forall_impl; [|exact Hm]. cbn; intros; lia.
    - pose proof (proj1 (list_max_le (map fst (combine inds vals)) _) (Nat.le_refl _)) as Hm.
      rewrite Forall_map in Hm. eapply Forall_impl; [|exact Hm]. cbn; intros; lia. }
  destruct Hb as (n & Hb1 & Hb2).
  rewrite <- (bigsum_assoc n _ (fun i => nth i x 0) Hb1), <- (bigsum_assoc n _ (fun i => nth i x 0) Hb2).
  apply bigsum_ext. intros i _. rewrite Heq. reflexivity.
Qed.

(** ** when does the quadratic conversion succeed *)
Lemma quad_to_eigen_cases (q : quad R) n halved fd : wf_quad q ->
  (~ Forall (fun v => (v < n)%nat) (a_vars (q_aff q)) -> quad_to_eigen q n halved fd = Ok None) /\
  (Forall (fun v => (v < n)%nat) (a_vars (q_aff q)) ->
   Forall (fun v => (v < n)%nat) (q_vars1 q) -> Forall (fun v => (v < n)%nat) (q_vars2 q) ->
   exists m v, quad_to_eigen q n halved fd = Ok (Some (m, v))).
Proof.
  intros (Hw & H1 & H2). unfold quad_to_eigen.
  assert (Hl : negb ((length (q_vars2 q) =? length (q_vars1 q))%nat && (length (q_vars1 q) =? length (q_coeffs q))%nat) = false).
  { rewrite H1, H2, !Nat.eqb_refl. reflexivity. }
  rewrite Hl. pose proof (aff_to_sparse_none (q_aff q) n Hw) as Hn. split.
  - intros H. apply Hn in H. rewrite H. reflexivity.
  - intros Ha Hv1 Hv2. destruct (aff_to_sparse (q_aff q) n) as [sv|].
    2: { exfalso. destruct Hn as [Hn _]. apply (Hn eq_refl). exact Ha. }
    unfold set_from_triplets.
    match goal with |- context [forallb ?p ?ts] => assert (Hall : forallb p ts = true) end.
    { rewrite forallb_app. apply andb_true_iff. split.
      - apply forallb_forall. intros t Ht. unfold quad_triplets in Ht. apply in_map_iff in Ht as ([c [i j]] & <- & Hin).
        apply filter_In in Hin as [Hin _]. pose proof (in_combine_r _ _ _ _ Hin) as Hij.
        pose proof (in_combine_l _ _ _ _ Hij) as Hi. pose proof (in_combine_r _ _ _ _ Hij) as Hj.
        rewrite Forall_forall in Hv1, Hv2. specialize (Hv1 _ Hi). specialize (Hv2 _ Hj).
        destruct (i =? j)%nat; [|destruct (i <? j)%nat]; unfold t_row, t_col; cbn [fst snd];
          apply andb_true_iff; split; apply Nat.ltb_lt; assumption.
      - destruct fd; [|reflexivity]. apply forallb_forall. intros t Ht. apply in_map_iff in Ht as (k & <- & Hk).
        apply in_seq in Hk. unfold t_row, t_col; cbn [fst snd]. apply andb_true_iff; split; apply Nat.ltb_lt; lia. }
    rewrite Hall. cbn [obind]. eexists. eexists. reflexivity.
Qed.
