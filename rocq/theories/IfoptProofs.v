(** * Proofs for the trajopt_ifopt core *)
From Coq Require Import List ZArith Bool Arith Reals Lra Lia.
From Verif Require Import Num NumFacts RSums IfoptModel.
Import ListNotations.
Local Open Scope R_scope.

(** ** Specification *)
Definition inside (b : bnd R) (x : R) : Prop :=
  (forall l, b_lo b = Some l -> l <= x) /\ (forall u, b_hi b = Some u -> x <= u).
Definition proper (b : bnd R) : Prop := forall l u, b_lo b = Some l -> b_hi b = Some u -> l <= u.

Lemma bound_cases (b : bnd R) x : proper b ->
  (exists l, b_lo b = Some l /\ x < l /\ bound_error b x = x - l /\ closest b x = l) \/
  (exists u, b_hi b = Some u /\ u < x /\ bound_error b x = x - u /\ closest b x = u) \/
  (inside b x /\ bound_error b x = 0 /\ closest b x = x).
Proof.
  intros Hp. unfold bound_error, closest, lt_lo, gt_hi, lo_or, hi_or, inside, proper in *.
  destruct (b_lo b) as [l|] eqn:El; destruct (b_hi b) as [u|] eqn:Eu; rnum; rewrite ?nmax_R, ?nmin_R.
  - specialize (Hp l u eq_refl eq_refl). destruct (Rltb_spec x l); [left|].
    + exists l. rewrite Rmax_right, Rmin_left by lra. auto.
    + destruct (Rltb_spec u x); [right; left|right; right].
      * exists u. rewrite Rmax_left, Rmin_right by lra. auto.
      * rewrite Rmax_left, Rmin_left by lra. split; [|auto]. split; intros ? [= <-]; lra.
  - destruct (Rltb_spec x l); [left|right; right].
    + exists l. rewrite Rmax_right by lra. auto.
    + rewrite Rmax_left by lra. split; [|auto]. split; [intros ? [= <-]; lra|discriminate].
  - destruct (Rltb_spec u x); [right; left|right; right].
    + exists u. rewrite Rmin_right by lra. auto.
    + rewrite Rmin_left by lra. split; [|auto]. split; [discriminate|intros ? [= <-]; lra].
  - right; right. split; [|auto]. split; discriminate.
Qed.

Lemma bound_viol_abs (b : bnd R) x : bound_viol b x = Rabs (bound_error b x).
Proof.
  unfold bound_viol, bound_error. destruct (lt_lo x b); [reflexivity|]. destruct (gt_hi x b); [reflexivity|].
  rnum. rewrite Rabs_R0. reflexivity.
Qed.

Lemma closest_inside b x : proper b -> inside b (closest b x).
Proof.
  intros Hp. destruct (bound_cases b x Hp) as [(l & El & H1 & _ & ->)|[(u & Eu & H1 & _ & ->)|(H & _ & ->)]]; [| |exact H].
  - split; [intros l' E; rewrite E in El; injection El; lra|]. intros u E. specialize (Hp l u El E). lra.
  - split; [intros l E; specialize (Hp l u E Eu); lra|]. intros u' E. rewrite E in Eu. injection Eu. lra.
Qed.
Lemma closest_id b x : proper b -> inside b x -> closest b x = x.
Proof.
  intros Hp [H1 H2]. destruct (bound_cases b x Hp) as [(l & El & H & _)|[(u & Eu & H & _)|(_ & _ & ->)]]; [| |reflexivity].
  - specialize (H1 l El). lra.
  - specialize (H2 u Eu). lra.
Qed.
Lemma closest_nearest b x z : proper b -> inside b z -> Rabs (closest b x - x) <= Rabs (z - x).
Proof.
  intros Hp [H1 H2]. destruct (bound_cases b x Hp) as [(l & El & H & _ & ->)|[(u & Eu & H & _ & ->)|(_ & _ & ->)]].
  - specialize (H1 l El). rewrite !Rabs_right by lra. lra.
  - specialize (H2 u Eu). rewrite !Rabs_left by lra. lra.
  - rewrite Rminus_diag_eq, Rabs_R0 by reflexivity. apply Rabs_pos.
Qed.
Lemma error_closest b x : proper b -> bound_error b x = x - closest b x.
Proof.
  intros Hp. destruct (bound_cases b x Hp) as [(l & El & H & -> & ->)|[(u & Eu & H & -> & ->)|(_ & -> & ->)]]; ring.
Qed.
Lemma error_zero b x : proper b -> (bound_error b x = 0 <-> inside b x).
Proof.
  intros Hp. destruct (bound_cases b x Hp) as [(l & El & H & -> & _)|[(u & Eu & H & -> & _)|(Hi & -> & _)]].
  - split; [lra|]. intros [H1 _]. specialize (H1 l El). lra.
  - split; [lra|]. intros [_ H1]. specialize (H1 u Eu). lra.
  - tauto.
Qed.

(** moving the value by h changes the squared distance by 2 e h, up to h^2 *)
Lemma error_sq_quadratic b x h : proper b ->
  Rabs (bound_error b (x + h) ^ 2 - bound_error b x ^ 2 - 2 * bound_error b x * h) <= h ^ 2.
Proof.
  intros Hp. rewrite !error_closest by exact Hp.
  pose proof (closest_inside b x Hp) as I0. pose proof (closest_inside b (x + h) Hp) as I1.
  set (p := closest b x) in *. set (q := closest b (x + h)) in *.
  assert (A : (x - p) * (q - p) <= 0).
  { unfold p in *. clear - I1 Hp. destruct (bound_cases b x Hp) as [(l & El & H & _ & E)|[(u & Eu & H & _ & E)|(_ & _ & E)]]; rewrite E in *.
    - destruct I1 as [I1 _]. specialize (I1 l El). nra.
    - destruct I1 as [_ I1]. specialize (I1 u Eu). nra.
    - nra. }
  assert (B : (x + h - q) * (p - q) <= 0).
  { unfold q in *. clear - I0 Hp. destruct (bound_cases b (x + h) Hp) as [(l & El & H & _ & E)|[(u & Eu & H & _ & E)|(_ & _ & E)]]; rewrite E in *.
    - destruct I0 as [I0 _]. specialize (I0 l El). nra.
    - destruct I0 as [_ I0]. specialize (I0 u Eu). nra.
    - nra. }
  pose proof (Rle_0_sqr (q - p)) as C. pose proof (Rle_0_sqr (h - (q - p))) as D. unfold Rsqr in C, D.
  apply Rabs_le. split; nra.
Qed.

(** ** Lists *)
Lemma sized_val {A} (f : bnd R -> R -> A) bs xs : length xs = length bs ->
  sized f bs xs = Val (map (fun p => f (fst p) (snd p)) (combine bs xs)).
Proof. intros H. unfold sized. rewrite H, Nat.eqb_refl. reflexivity. Qed.
Lemma map_combine_nth {A B C} (f : A * B -> C) l l' i d da db : length l = length l' -> (i < length l)%nat ->
  nth i (map f (combine l l')) d = f (nth i l da, nth i l' db).
Proof.
  intros E H. rewrite (nth_indep _ d (f (da, db))) by (rewrite map_length, combine_length; lia).
  rewrite map_nth, combine_nth by exact E. reflexivity.
Qed.
Lemma nth_map_d {A B} (f : A -> B) l i d da : (i < length l)%nat -> nth i (map f l) d = f (nth i l da).
Proof. intros H. rewrite (nth_indep _ d (f da)) by (rewrite map_length; exact H). apply map_nth. Qed.
Lemma nth_map_seq {A} (f : nat -> A) n i d : (i < n)%nat -> nth i (map f (seq 0 n)) d = f i.
Proof. intros H. rewrite (nth_map_d f _ i d 0%nat) by (rewrite seq_length; exact H). rewrite seq_nth by exact H. reflexivity. Qed.
Lemma Forall2_nth_iff {A B} (P : A -> B -> Prop) l l' da db :
  Forall2 P l l' <-> length l = length l' /\ forall i, (i < length l)%nat -> P (nth i l da) (nth i l' db).
Proof.
  split.
  - induction 1 as [|a b l l' H F [IH1 IH2]]; cbn; [split; [auto|lia]|]. split; [lia|]. intros [|i] Hi; [exact H|apply IH2; lia].
  - revert l'; induction l as [|a l IH]; intros [|b l'] [H1 H2]; cbn in *; try lia; constructor.
    + apply (H2 0%nat). lia.
    + apply IH. split; [lia|]. intros i Hi. apply (H2 (S i)). lia.
Qed.

(** ** Composites *)
Definition comp_ok (p : comp R) : Prop :=
  length (cm_vals p) = cm_rows p /\ length (cm_coeffs p) = cm_rows p /\
  length (cm_jac p) = cm_rows p /\ length (cm_bounds p) = cm_rows p.
Notation total ps := (list_sum (map cm_rows ps)).

Lemma ct_build_spec m (ps : list (comp R)) : ct_build m ps = {| ct_mode := m; ct_rows := total ps; ct_comps := ps |}.
Proof.
  unfold ct_build. assert (G : forall (qs : list (comp R)) (c : composite R), fold_left ct_add qs c =
    {| ct_mode := ct_mode c; ct_rows := (ct_rows c + total qs)%nat; ct_comps := ct_comps c ++ qs |}).
  { induction qs as [|p qs IH]; intros c; cbn [fold_left].
    - cbn. rewrite Nat.add_0_r, app_nil_r. destruct c; reflexivity.
    - rewrite IH. cbn. rewrite <- app_assoc, Nat.add_assoc. reflexivity. }
  rewrite G. reflexivity.
Qed.

Lemma add_block_zero (a z : list R) n v : length v = n -> (n <= length z)%nat -> (forall i, nth i z 0 = 0) ->
  add_block (a ++ z) (length a) n v = Val (a ++ v ++ skipn n z).
Proof.
  intros Hv Hn Hz. unfold add_block. rewrite app_length, (proj2 (Nat.leb_le _ _)), Hv, Nat.eqb_refl by lia. cbn [andb].
  rewrite firstn_app, firstn_all, Nat.sub_diag, app_nil_r. f_equal. f_equal. f_equal.
  - rewrite skipn_app, skipn_all, Nat.sub_diag. cbn [app skipn]. clear a. revert n z Hn Hz Hv.
    induction v as [|x v IH]; intros n z Hn Hz Hv; cbn in Hv; subst n; [destruct (firstn 0 z); reflexivity|].
    destruct z as [|y z]; [cbn in Hn; lia|]. cbn [firstn combine map fst snd]. rnum.
    pose proof (Hz 0%nat) as Hy. cbn in Hy. rewrite Hy, Rplus_0_l. f_equal.
    apply IH; [cbn in Hn; lia|intros i; exact (Hz (S i))|reflexivity].
  - rewrite skipn_app, skipn_all2 by lia. cbn [app]. f_equal. lia.
Qed.

Lemma nth_skipn0 (z : list R) n i : (forall i, nth i z 0 = 0) -> nth i (skipn n z) 0 = 0.
Proof.
  revert n; induction z as [|y z IH]; intros n Hz.
  - rewrite skipn_nil. destruct i; reflexivity.
  - destruct n; [apply Hz|]. cbn [skipn]. apply IH. intros j. exact (Hz (S j)).
Qed.

Lemma stack_spec (get : comp R -> list R) ps a z : Forall (fun p => length (get p) = cm_rows p) ps ->
  length z = total ps -> (forall i, nth i z 0 = 0) ->
  stack StackRows get ps (length a) (a ++ z) = Val (a ++ flat_map get ps).
Proof.
  revert a z; induction ps as [|p ps IH]; intros a z Hl Hz H0; cbn [stack flat_map].
  - cbn in Hz. destruct z; [reflexivity|discriminate].
  - inversion_clear Hl. change (total (p :: ps)) with (cm_rows p + total ps)%nat in Hz. rewrite add_block_zero by (auto; lia). cbn [rbind].
    rewrite app_assoc. replace (length a + cm_rows p)%nat with (length (a ++ get p)) by (rewrite app_length; lia).
    rewrite IH; [rewrite <- app_assoc; reflexivity|assumption|rewrite skipn_length; lia|].
    intros i. apply nth_skipn0, H0.
Qed.

Lemma repeat_nth0 n i : nth i (repeat 0 n) 0 = 0.
Proof. revert i; induction n; intros [|i]; cbn; auto. Qed.

Lemma ct_values_spec ps : Forall comp_ok ps -> ct_values (ct_build StackRows ps) = Val (flat_map cm_vals ps).
Proof.
  intros H. rewrite ct_build_spec. unfold ct_values. cbn [ct_mode ct_comps ct_rows].
  apply (stack_spec cm_vals ps []); [|apply repeat_length|apply repeat_nth0].
  eapply Forall_impl; [|exact H]. intros p (A & _). exact A.
Qed.
Lemma ct_coeffs_spec ps : Forall comp_ok ps -> ct_coeffs (ct_build StackRows ps) = Val (flat_map cm_coeffs ps).
Proof.
  intros H. rewrite ct_build_spec. unfold ct_coeffs. cbn [ct_mode ct_comps ct_rows].
  apply (stack_spec cm_coeffs ps []); [|apply repeat_length|apply repeat_nth0].
  eapply Forall_impl; [|exact H]. intros p (_ & A & _). exact A.
Qed.

(** Jacobian rows *)
Lemma jac_triplets_cons {T} row (r : srow T) j :
  jac_triplets row (r :: j) = map (fun p => (row, fst p, snd p)) r ++ jac_triplets (S row) j.
Proof.
  unfold jac_triplets. cbn [length seq combine flat_map fst snd]. rewrite Nat.add_0_r. f_equal.
  rewrite <- seq_shift, combine_map_l, flat_map_concat_map, map_map, flat_map_concat_map. f_equal.
  apply map_ext. intros [k rr]. cbn. apply map_ext. intros p. rewrite Nat.add_succ_r. reflexivity.
Qed.
Lemma jac_triplets_app {T} row (j j' : list (srow T)) :
  jac_triplets row (j ++ j') = jac_triplets row j ++ jac_triplets (row + length j) j'.
Proof.
  revert row; induction j as [|r j IH]; intros row; cbn [app length].
  - rewrite Nat.add_0_r. reflexivity.
  - rewrite !jac_triplets_cons, IH, <- app_assoc, Nat.add_succ_r. reflexivity.
Qed.
Lemma stack_jac_spec ps row : Forall comp_ok ps -> stack_jac StackRows ps row = jac_triplets row (flat_map cm_jac ps).
Proof.
  revert row; induction ps as [|p ps IH]; intros row H; cbn [stack_jac flat_map]; [reflexivity|].
  inversion_clear H. destruct H0 as (_ & _ & Hj & _). rewrite jac_triplets_app, Hj, IH by assumption. reflexivity.
Qed.
Lemma jac_triplets_rows {T} (j : list (srow T)) row t : In t (jac_triplets row j) -> (row <= fst (fst t) < row + length j)%nat.
Proof.
  revert row; induction j as [|r j IH]; intros row H; [destruct H|]. rewrite jac_triplets_cons in H. cbn [length].
  apply in_app_or in H as [H|H]; [apply in_map_iff in H as (p & <- & _); cbn; lia|]. specialize (IH _ H). lia.
Qed.
Lemma row_entries_app {T} (a b : list (triplet T)) r : row_entries (a ++ b) r = row_entries a r ++ row_entries b r.
Proof. unfold row_entries. rewrite filter_app, map_app. reflexivity. Qed.
Lemma row_entries_none {T} (a : list (triplet T)) r : (forall t, In t a -> fst (fst t) <> r) -> row_entries a r = [].
Proof.
  intros H. unfold row_entries. assert (E : filter (fun t => (fst (fst t) =? r)%nat) a = []); [|rewrite E; reflexivity].
  induction a as [|t a IH]; [reflexivity|]. cbn. rewrite (proj2 (Nat.eqb_neq _ _)) by (apply H; left; reflexivity).
  apply IH. intros t' Ht. apply H. right; exact Ht.
Qed.
Lemma row_entries_own {T} row (r : srow T) : row_entries (map (fun p => (row, fst p, snd p)) r) row = r.
Proof.
  unfold row_entries. induction r as [|[c v] r IH]; [reflexivity|]. cbn. rewrite Nat.eqb_refl. cbn. f_equal. exact IH.
Qed.
Lemma rows_of_triplets {T} (j : list (srow T)) row :
  map (row_entries (jac_triplets row j)) (seq row (length j)) = j.
Proof.
  revert row; induction j as [|r j IH]; intros row; [reflexivity|]. cbn [length seq map]. rewrite jac_triplets_cons. f_equal.
  - rewrite row_entries_app, row_entries_own, row_entries_none, app_nil_r; [reflexivity|].
    intros t Ht. apply jac_triplets_rows in Ht. lia.
  - etransitivity; [|exact (IH (S row))]. apply map_ext_in. intros k Hk. apply in_seq in Hk. rewrite row_entries_app, row_entries_none; [reflexivity|].
    intros t Ht. apply in_map_iff in Ht as (p & <- & _). cbn. lia.
Qed.
Lemma flat_map_total {A} (get : comp R -> list A) ps : Forall (fun p => length (get p) = cm_rows p) ps -> length (flat_map get ps) = total ps.
Proof. induction 1 as [|p ps Hp F IH]; [reflexivity|]. cbn [flat_map]. rewrite app_length, Hp, IH. reflexivity. Qed.

Lemma ct_jacobian_spec ps : Forall comp_ok ps -> ct_jacobian (ct_build StackRows ps) = Val (flat_map cm_jac ps).
Proof.
  intros H. rewrite ct_build_spec. unfold ct_jacobian. cbn [ct_mode ct_comps ct_rows].
  assert (L : length (flat_map cm_jac ps) = total ps).
  { apply flat_map_total. eapply Forall_impl; [|exact H]. intros p (_ & _ & A & _). exact A. }
  rewrite stack_jac_spec by exact H. rewrite (proj2 (forallb_forall _ _)).
  - rewrite <- L at 1. rewrite rows_of_triplets. reflexivity.
  - intros t Ht. apply jac_triplets_rows in Ht. apply Nat.ltb_lt. lia.
Qed.

Lemma flat_map_block {A} (get : comp R -> list A) a p b : Forall (fun p => length (get p) = cm_rows p) (a ++ p :: b) ->
  firstn (cm_rows p) (skipn (total a) (flat_map get (a ++ p :: b))) = get p.
Proof.
  intros H. apply Forall_app in H as [Ha Hb]. inversion_clear Hb. rewrite flat_map_app.
  rewrite skipn_app, skipn_all2 by (rewrite flat_map_total; auto). rewrite flat_map_total, Nat.sub_diag by exact Ha. cbn [app skipn flat_map].
  rewrite firstn_app, H, Nat.sub_diag, <- H, firstn_all. cbn. apply app_nil_r.
Qed.

(** ** Column sums *)
Lemma srow_dot_R (r : srow R) x : srow_dot r x = rsum (fun p => snd p * nth (fst p) x 0) r.
Proof. unfold srow_dot. rewrite vsum_R. reflexivity. Qed.

Lemma col_fold c (l : list (nat * R)) s :
  fold_left (fun s cv => if (fst cv =? c)%nat then s + snd cv else s) l s = s + assoc_sum c l.
Proof.
  revert s; induction l as [|[k v] l IH]; intros s; cbn [fold_left]; [unfold assoc_sum, rsum; cbn; ring|].
  rewrite IH. unfold assoc_sum. rewrite rsum_cons. cbn [fst snd]. destruct (k =? c)%nat; ring.
Qed.

Lemma bigsum_dot n (f : nat -> R) (d : list R) : length d = n ->
  rsum (fun p => fst p * snd p) (combine (map f (seq 0 n)) d) = bigsum n (fun i => f i * nth i d 0).
Proof.
  intros H. unfold bigsum. rewrite combine_map_l, rsum_map.
  assert (G : forall s (d : list R) k, rsum (fun p => f (fst p) * snd p) (combine (seq s k) d) =
    rsum (fun i => f i * nth (i - s) d 0) (firstn (length d) (seq s k))).
  { clear. intros s d. revert s. induction d as [|y d IH]; intros s k; [destruct k; reflexivity|].
    destruct k as [|k]; [reflexivity|]. cbn [seq combine length firstn]. rewrite !rsum_cons. cbn [fst snd]. rewrite Nat.sub_diag. cbn [nth]. f_equal.
    rewrite IH. apply rsum_ext. intros i Hi. f_equal.
    assert (In i (seq (S s) k)).
    { clear -Hi. revert Hi. generalize (seq (S s) k) (length d). intros l n. revert n; induction l; intros [|n]; cbn; tauto || (intros [?|?]; eauto). }
    apply in_seq in H. replace (i - s)%nat with (S (i - S s)) by lia. reflexivity. }
  cbn [fst snd]. rewrite G, H, firstn_all2 by (rewrite seq_length; lia). apply rsum_ext. intros i _. rewrite Nat.sub_0_r. reflexivity.
Qed.

(** the column sums times a vector are the sum of the rows times the vector *)
Lemma col_sums_dot n (j : list (srow R)) d : length d = n -> Forall (Forall (fun p => (fst p < n)%nat)) j ->
  vdot (col_sums n j) d = rsum (fun r => srow_dot r d) j.
Proof.
  intros Hd Hj. unfold vdot. rewrite vsum_R. unfold col_sums.
  change (Rsum (map (fun p : R * R => (fst p * snd p)%num) (combine (map ?f (seq 0 n)) d))) with
    (rsum (fun p : R * R => fst p * snd p) (combine (map f (seq 0 n)) d)).
  rewrite bigsum_dot by exact Hd. rnum.
  rewrite (bigsum_ext n _ (fun i => assoc_sum i (concat j) * nth i d 0)) by (intros i _; rewrite col_fold; ring).
  rewrite bigsum_assoc.
  - induction j as [|r j IH]; [reflexivity|]. cbn [concat]. rewrite rsum_app, rsum_cons, srow_dot_R. inversion_clear Hj. f_equal. apply IH. assumption.
  - clear Hd d. induction Hj as [|r j Hr F IH]; cbn; [constructor|]. apply Forall_app. auto.
Qed.

Lemma scale_rows_dot ks (j : list (srow R)) d : length ks = length j ->
  map (fun r => srow_dot r d) (scale_rows ks j) = map (fun p => fst p * srow_dot (snd p) d) (combine ks j).
Proof.
  revert j; induction ks as [|k ks IH]; intros [|r j] H; try discriminate; [reflexivity|]. cbn [scale_rows combine map fst snd].
  f_equal; [|apply IH; cbn in H; lia].
  rewrite !srow_dot_R, rsum_map. cbn [fst snd]. rewrite <- rsum_scal. apply rsum_ext. intros p _. rnum. ring.
Qed.
Lemma scale_rows_in n ks (j : list (srow R)) : Forall (Forall (fun p => (fst p < n)%nat)) j -> Forall (Forall (fun p => (fst p < n)%nat)) (scale_rows ks j).
Proof.
  intros H. revert ks; induction H as [|r j Hr F IH]; intros [|k ks]; cbn; constructor; [|apply IH].
  rewrite Forall_map. exact Hr.
Qed.
Lemma srow_dot_add (r : srow R) x d : length x = length d -> srow_dot r (map (fun p => fst p + snd p) (combine x d)) = srow_dot r x + srow_dot r d.
Proof.
  intros H. rewrite !srow_dot_R, <- rsum_plus. apply rsum_ext. intros [c v] _. cbn [fst snd].
  destruct (Nat.lt_ge_cases c (length x)) as [Hc|Hc].
  - rewrite (map_combine_nth _ x d c 0 0 0 H Hc). cbn. ring.
  - rewrite !nth_overflow; [ring|lia|lia|rewrite map_length, combine_length; lia].
Qed.

(** ** A derivative from a quadratic bound *)
Lemma derivable_from_quadratic (f : R -> R) (a k : R) : 0 <= k ->
  (forall h, Rabs (f h - f 0 - a * h) <= k * h ^ 2) -> derivable_pt_lim f 0 a.
Proof.
  intros Hk H eps He. assert (Hd : 0 < eps / (k + 1)) by (apply Rdiv_lt_0_compat; lra).
  exists (mkposreal _ Hd). intros h Hh Hb. cbn in Hb. rewrite Rplus_0_l.
  replace ((f h - f 0) / h - a) with ((f h - f 0 - a * h) / h) by (field; exact Hh).
  unfold Rdiv. rewrite Rabs_mult, Rabs_inv.
  assert (Hp : 0 < Rabs h) by (apply Rabs_pos_lt, Hh).
  apply Rle_lt_trans with (k * h ^ 2 * / Rabs h).
  - apply Rmult_le_compat_r; [left; apply Rinv_0_lt_compat, Hp|apply H].
  - replace (h ^ 2) with (Rabs h * Rabs h) by (rewrite <- Rabs_mult, Rabs_right; [ring|nra]).
    replace (k * (Rabs h * Rabs h) * / Rabs h) with (k * Rabs h) by (field; lra).
    apply Rle_lt_trans with (k * (eps / (k + 1))); [apply Rmult_le_compat_l; lra|].
    replace (k * (eps / (k + 1))) with (eps * (k / (k + 1))) by (field; lra).
    assert (k / (k + 1) < 1) by (apply Rmult_lt_reg_r with (k + 1); [lra|]; unfold Rdiv; rewrite Rmult_assoc, Rinv_l by lra; lra). nra.
Qed.
