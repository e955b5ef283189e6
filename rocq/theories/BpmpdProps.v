(** * C44: the problem handed to BPMPD *)
From Coq Require Import List ZArith QArith Bool Arith Lia Reals Lra Sorted.
From Verif Require Import Num NumFacts RSums Common ScoExprModel ScoExprProofs EigenModel EigenProofs EigenProps BackendModel BackendSpec BackendProofs BackendProps.
Import ListNotations.
Local Open Scope R_scope.

(** what a reader of counts, 1-based indices and values sees at (r, c) *)
Definition bget (k : bcols R) (r c : nat) : R :=
  rsum (fun i => if Nat.eqb (nth i (k_idx k) 0%nat) (S r) then nth i (k_nzs k) 0 else 0)
    (seq (list_sum (firstn c (k_cnt k))) (nth c (k_cnt k) 0%nat)).

Lemma bget_flatten (t : list (list (nat * R))) r c : (c < length t)%nat -> bget (flatten t) r c = assoc_sum r (nth c t []).
Proof.
  intros Hc. unfold bget, flatten. cbn [k_cnt k_idx k_nzs].
  rewrite (nth_map_in (@length _) t c 0%nat []) by exact Hc.
  assert (Hl : list_sum (firstn c (map (@length _) t)) = length (concat (firstn c t))).
  { rewrite firstn_map. generalize (firstn c t). intros l. induction l as [|a l IH]; [reflexivity|]. cbn [map list_sum fold_right concat]. rewrite app_length. unfold list_sum in IH. rewrite IH. reflexivity. }
  rewrite Hl. unfold assoc_sum.
  rewrite <- (seq_middle (concat (firstn c t)) (nth c t []) (concat (skipn (S c) t)) (0%nat, 0) (fun p => if Nat.eqb (fst p) r then snd p else 0)).
  assert (Hcat : concat (firstn c t) ++ nth c t [] ++ concat (skipn (S c) t) = concat t).
  { pose proof (flat_map_split (fun x : list (nat * R) => x) t c [] Hc) as Hf. rewrite !flat_map_concat_map, !map_id in Hf. symmetry. exact Hf. }
  rewrite Hcat. apply rsum_ext. intros k Hk. apply in_seq in Hk.
  assert (Hk' : (k < length (concat t))%nat) by (rewrite <- Hcat, !app_length; lia).
  rewrite <- flat_fst_snd in Hk' |- *.
  assert (L : length (flat_map (map fst) t) = length (flat_map (map snd) t)).
  { clear. induction t as [|a t IH]; [reflexivity|]. cbn [flat_map]. rewrite !app_length, !map_length, IH. reflexivity. }
  rewrite combine_nth by exact L. cbn [fst snd]. rewrite combine_length in Hk'.
  rewrite (nth_map_in S _ k 0%nat 0%nat) by lia. reflexivity.
Qed.

Lemma push_get (t : list (list (nat * R))) i p r c : (i < length t)%nat ->
  assoc_sum r (nth c (push t i p) []) = assoc_sum r (nth c t []) + (if Nat.eqb i c then (if Nat.eqb (fst p) r then snd p else 0) else 0).
Proof.
  intros H. unfold push. rewrite set_nth_nth. apply Nat.ltb_lt in H. rewrite H, andb_true_r, Nat.eqb_sym.
  destruct (Nat.eqb_spec i c) as [->|N]; [|lra]. unfold assoc_sum. rewrite rsum_app, rsum_cons, rsum_nil. lra.
Qed.
(** entries pushed as (variable, (index, value)) *)
Lemma pushes_get (l : list (nat * (nat * R))) : forall t r c, Forall (fun x => (fst x < length t)%nat) l ->
  length (fold_left (fun t x => push t (fst x) (snd x)) l t) = length t /\
  assoc_sum r (nth c (fold_left (fun t x => push t (fst x) (snd x)) l t) []) =
    assoc_sum r (nth c t []) + rsum (fun x => if Nat.eqb (fst x) c then (if Nat.eqb (fst (snd x)) r then snd (snd x) else 0) else 0) l.
Proof.
  induction l as [|x l IH]; intros t r c F; cbn [fold_left]; [rewrite rsum_nil; split; [reflexivity|lra]|].
  inversion F as [|? ? F1 F2]; subst. destruct (IH (push t (fst x) (snd x)) r c) as [I1 I2].
  { unfold push. rewrite set_nth_length. exact F2. }
  rewrite I1, I2, push_get, rsum_cons by exact F1. unfold push. rewrite set_nth_length. split; [reflexivity|lra].
Qed.
Lemma simplified_get (t : list (list (nat * R))) r c : assoc_sum r (nth c (simplified t) []) = assoc_sum r (nth c t []).
Proof.
  unfold simplified. set (f := fun l : list (nat * R) => _).
  destruct (Nat.lt_ge_cases c (length t)) as [H|H].
  - rewrite (nth_map_in f t c [] []) by exact H. unfold f. set (l := nth c t []).
    pose proof (simplify2_spec (map fst l) (map snd l) ltac:(rewrite !map_length; reflexivity)) as S2.
    destruct (simplify2 (map fst l) (map snd l)) as [i v]. destruct S2 as (_ & _ & _ & S2). rewrite S2, combine_fst_snd. reflexivity.
  - rewrite !nth_overflow by (try rewrite map_length; exact H). reflexivity.
Qed.
Lemma simplified_sorted (t : list (list (nat * R))) : Forall (fun col => StronglySorted lt (map fst col)) (simplified t).
Proof.
  unfold simplified. apply Forall_map, Forall_forall. intros l _.
  pose proof (simplify2_spec (map fst l) (map snd l) ltac:(rewrite !map_length; reflexivity)) as S2.
  destruct (simplify2 (map fst l) (map snd l)) as [i v]. destruct S2 as (L & So & _). destruct (combine_split_eq i v L) as [-> _]. exact So.
Qed.

Lemma simplified_range (P : nat -> Prop) (t : list (list (nat * R))) : Forall (Forall (fun p => P (fst p))) t -> Forall (Forall (fun p => P (fst p))) (simplified t).
Proof.
  intros F. unfold simplified. apply Forall_map. eapply Forall_impl; [|exact F]. cbv beta. intros l Fl. unfold simplify2. rewrite !combine_fst_snd.
  assert (K : forall (l acc : list (nat * R)), Forall (fun p => P (fst p)) l -> Forall (fun p => P (fst p)) acc ->
    Forall (fun p => P (fst p)) (fold_left (fun acc iv => if negb (snd iv =? nzero)%num then (if existsb (fun p => fst p =? fst iv)%nat acc then col_add (fst iv) (snd iv) acc else col_add (fst iv) (nzero + snd iv)%num acc) else acc) l acc)).
  { clear. induction l as [|p l IH]; intros acc F1 F2; [exact F2|]. cbn [fold_left]. inversion F1; subst. apply IH; [assumption|].
    destruct (negb _); [|assumption]. destruct (existsb _ _); apply (col_add_bound P); assumption. }
  apply K; [exact Fl|constructor].
Qed.
Lemma pushes_range (P : nat -> Prop) (l : list (nat * (nat * R))) : forall t, Forall (fun x => P (fst (snd x))) l -> Forall (Forall (fun p => P (fst p))) t ->
  Forall (Forall (fun p => P (fst p))) (fold_left (fun t x => push t (fst x) (snd x)) l t).
Proof.
  induction l as [|x l IH]; intros t F1 F2; [exact F2|]. cbn [fold_left]. inversion F1 as [|? ? G1 G2]; subst. apply IH; [exact G2|].
  apply Forall_forall. intros col Hin. apply (In_nth _ _ []) in Hin as (c & Hc & <-). unfold push in *. rewrite set_nth_length in Hc. rewrite set_nth_nth.
  assert (N : Forall (fun p => P (fst p)) (nth c t [])) by (rewrite Forall_forall in F2; apply F2, nth_In, Hc).
  destruct (Nat.eqb_spec c (fst x)) as [->|]; cbn [andb]; [|exact N]. destruct (fst x <? length t)%nat; [|exact N].
  apply Forall_app. split; [exact N|]. constructor; [exact G1|constructor].
Qed.

(** ** the constraint columns *)
Definition cnt_entries (k : nat) (es : list (aff R)) : list (nat * (nat * R)) :=
  flat_map (fun ie => map (fun vc => (fst vc, (fst ie, snd vc))) (combine (a_vars (snd ie)) (a_coeffs (snd ie)))) (combine (seq k (length es)) es).
Lemma fold_map_l {A B C} (f : A -> B -> A) (g : C -> B) l a : fold_left f (map g l) a = fold_left (fun a c => f a (g c)) l a.
Proof. revert a. induction l as [|c l IH]; intros a; cbn; auto. Qed.
Lemma cnt_table_entries n (es : list (aff R)) : bpmpd_cnt_table n es = fold_left (fun t x => push t (fst x) (snd x)) (cnt_entries 0 es) (repeat [] n).
Proof.
  unfold bpmpd_cnt_table, cnt_entries. generalize (combine (seq 0 (length es)) es) as l. generalize (repeat (@nil (nat * R)) n) as t.
  intros t l. revert t. induction l as [|ie l IH]; intros t; [reflexivity|]. cbn [fold_left flat_map]. rewrite fold_left_app, IH. f_equal.
  rewrite fold_map_l. reflexivity.
Qed.
Lemma cnt_entries_row k (es : list (aff R)) r (f : nat -> R) :
  rsum (fun x => if Nat.eqb (fst (snd x)) r then snd (snd x) * f (fst x) else 0) (cnt_entries k es) =
  if (k <=? r)%nat then match nth_error es (r - k) with Some e => rsum (fun vc => snd vc * f (fst vc)) (combine (a_vars e) (a_coeffs e)) | None => 0 end else 0.
Proof.
  revert k. induction es as [|e es IH]; intros k; unfold cnt_entries in *; cbn [length seq combine flat_map].
  - rewrite rsum_nil. destruct (k <=? r)%nat; [|reflexivity]. destruct (r - k)%nat; reflexivity.
  - rewrite rsum_app, IH, rsum_map. cbn [fst snd].
    destruct (Nat.leb_spec k r) as [H|H].
    + destruct (Nat.eq_dec k r) as [->|N].
      * rewrite Nat.sub_diag. cbn [nth_error]. destruct (Nat.leb_spec (S r) r); [lia|]. rewrite Nat.eqb_refl. lra.
      * replace (r - k)%nat with (S (r - S k)) by lia. cbn [nth_error]. destruct (Nat.leb_spec (S k) r); [|lia].
        destruct (Nat.eqb_spec k r); [lia|]. rewrite rsum_zero. lra.
    + destruct (Nat.leb_spec (S k) r); [lia|]. destruct (Nat.eqb_spec k r); [lia|]. rewrite rsum_zero. lra.
Qed.
Lemma bigsum_rsum {A} n (f : nat -> A -> R) l : bigsum n (fun c => rsum (f c) l) = rsum (fun a => bigsum n (fun c => f c a)) l.
Proof.
  induction l as [|a l IH]; [rewrite rsum_nil, <- (bigsum_zero n); apply bigsum_ext; reflexivity|].
  rewrite rsum_cons, <- IH, <- bigsum_plus. apply bigsum_ext. intros i _. apply rsum_cons.
Qed.
Lemma swap_terms (e : aff R) x : rsum (fun vc => snd vc * nth (fst vc) x 0) (combine (a_vars e) (a_coeffs e)) = aff_value e x - a_const e.
Proof.
  rewrite aff_value_sum. replace (a_const e + _ - a_const e) with (rsum (fun p : R * nat => fst p * nth (snd p) x 0) (combine (a_coeffs e) (a_vars e))) by lra.
  generalize (a_coeffs e), (a_vars e). intros cs vs. revert cs. induction vs as [|v vs IH]; intros [|c cs]; try reflexivity. cbn [combine]. rewrite !rsum_cons, IH. reflexivity.
Qed.
Lemma table0 n r c : assoc_sum r (nth c (repeat (@nil (nat * R)) n) []) = 0.
Proof. destruct (Nat.lt_ge_cases c n); [rewrite nth_repeat|rewrite nth_overflow by (rewrite repeat_length; assumption)]; reflexivity. Qed.
Lemma cnt_rows n (es : list (aff R)) i e x : Forall (fun e => Forall (fun v => (v < n)%nat) (a_vars e)) es -> nth_error es i = Some e ->
  bigsum n (fun c => bget (flatten (simplified (bpmpd_cnt_table n es))) i c * nth c x 0) = aff_value e x - a_const e.
Proof.
  intros F Hi.
  assert (FR : Forall (fun y : nat * (nat * R) => (fst y < length (repeat (@nil (nat * R)) n))%nat) (cnt_entries 0 es)).
  { rewrite repeat_length. apply Forall_forall. intros y Hy. unfold cnt_entries in Hy. apply in_flat_map in Hy as ([k e'] & Hk & Hy). apply in_map_iff in Hy as ([v w] & <- & Hv).
    apply in_combine_r in Hk. rewrite Forall_forall in F. specialize (F _ Hk). rewrite Forall_forall in F. apply F. eapply in_combine_l. exact Hv. }
  assert (L : length (simplified (bpmpd_cnt_table n es)) = n).
  { unfold simplified. rewrite map_length, cnt_table_entries. rewrite (proj1 (pushes_get _ _ 0%nat 0%nat FR)). apply repeat_length. }
  rewrite (bigsum_ext n _ (fun c => rsum (fun y => (if Nat.eqb (fst y) c then (if Nat.eqb (fst (snd y)) i then snd (snd y) else 0) else 0) * nth c x 0) (cnt_entries 0 es))).
  2: { intros c Hc. rewrite bget_flatten by (rewrite L; exact Hc). rewrite simplified_get, cnt_table_entries.
       rewrite (proj2 (pushes_get _ _ i c FR)), table0, rsum_scal_r. lra. }
  rewrite bigsum_rsum. rewrite (rsum_ext _ (fun y => if Nat.eqb (fst (snd y)) i then snd (snd y) * nth (fst y) x 0 else 0)).
  - rewrite (cnt_entries_row 0 es i (fun v => nth v x 0)). cbn [Nat.leb]. rewrite Nat.sub_0_r, Hi. apply swap_terms.
  - intros y Hy. rewrite Forall_forall in FR. specialize (FR y Hy). rewrite repeat_length in FR. rewrite (bigsum_single n _ (fst y)); [|exact FR|].
    + rewrite Nat.eqb_refl. destruct (Nat.eqb (fst (snd y)) i); lra.
    + intros c Hc N. destruct (Nat.eqb_spec (fst y) c); [congruence|lra].
Qed.

(** ** the objective *)
Definition obj_entry (x : R * (nat * nat)) : nat * (nat * R) :=
  let '(c, (i, j)) := x in if (i <? j)%nat then (i, (j, c)) else if (i =? j)%nat then (i, (j, c * 2)) else (j, (i, c)).
Lemma obj_table_entries n (q : quad R) :
  bpmpd_obj_table n q = fold_left (fun t x => push t (fst x) (snd x)) (map obj_entry (combine (q_coeffs q) (combine (q_vars1 q) (q_vars2 q)))) (repeat [] n).
Proof.
  unfold bpmpd_obj_table. rewrite fold_map_l. generalize (repeat (@nil (nat * R)) n). generalize (combine (q_coeffs q) (combine (q_vars1 q) (q_vars2 q))).
  intros l. induction l as [|[c [i j]] l IH]; intros t; [reflexivity|]. cbn [fold_left]. rewrite IH. f_equal. unfold obj_entry.
  destruct (i <? j)%nat; [reflexivity|]. destruct (i =? j)%nat; reflexivity.
Qed.
(** BPMPD gets the lower triangle by columns *)
Definition lower (a : nat -> nat -> R) (r c : nat) : R := if (c <=? r)%nat then a r c else a c r.
Lemma lower_form n (a : nat -> nat -> R) (x : list R) (es : list (nat * (nat * R))) :
  Forall (fun y => (fst y <= fst (snd y) < n)%nat) es ->
  (forall r c, (r < n)%nat -> (c < n)%nat -> a r c = rsum (fun y => if Nat.eqb (fst y) c then (if Nat.eqb (fst (snd y)) r then snd (snd y) else 0) else 0) es) ->
  bigsum n (fun r => bigsum n (fun c => nth r x 0 * lower a r c * nth c x 0)) =
  rsum (fun y => (if Nat.eqb (fst y) (fst (snd y)) then 1 else 2) * snd (snd y) * nth (fst y) x 0 * nth (fst (snd y)) x 0) es.
Proof.
  intros F Ha.
  rewrite (bigsum_ext n _ (fun r => rsum (fun y => bigsum n (fun c =>
     nth r x 0 * (if (c <=? r)%nat then (if Nat.eqb (fst y) c then (if Nat.eqb (fst (snd y)) r then snd (snd y) else 0) else 0)
                  else (if Nat.eqb (fst y) r then (if Nat.eqb (fst (snd y)) c then snd (snd y) else 0) else 0)) * nth c x 0)) es)).
  2: { intros r Hr. rewrite <- bigsum_rsum. apply bigsum_ext. intros c Hc. unfold lower. rewrite rsum_scal_r, rsum_scal.
       destruct (c <=? r)%nat; rewrite Ha by assumption; reflexivity. }
  rewrite bigsum_rsum. apply rsum_ext. intros [v [w k]] Hin. rewrite Forall_forall in F. specialize (F _ Hin). cbn [fst snd] in F |- *. clear Hin.
  set (g := fun r c : nat => nth r x 0 * (if (c <=? r)%nat then (if Nat.eqb v c then (if Nat.eqb w r then k else 0) else 0)
                  else (if Nat.eqb v r then (if Nat.eqb w c then k else 0) else 0)) * nth c x 0).
  change (bigsum n (fun r => bigsum n (g r)) = (if Nat.eqb v w then 1 else 2) * k * nth v x 0 * nth w x 0).
  assert (G : forall r c, g r c = (if Nat.eqb r w then (if Nat.eqb c v then k * nth w x 0 * nth v x 0 else 0) else 0) +
                                  (if Nat.eqb v w then 0 else if Nat.eqb r v then (if Nat.eqb c w then k * nth v x 0 * nth w x 0 else 0) else 0)).
  { intros r c. unfold g. destruct (Nat.leb_spec c r), (Nat.eqb_spec v c), (Nat.eqb_spec w r), (Nat.eqb_spec v r), (Nat.eqb_spec w c), (Nat.eqb_spec v w), (Nat.eqb_spec r w), (Nat.eqb_spec c v), (Nat.eqb_spec r v), (Nat.eqb_spec c w);
      subst; try lia; try congruence; try ring. }
  rewrite (bigsum_ext n _ (fun r => (if Nat.eqb r w then k * nth w x 0 * nth v x 0 else 0) + (if Nat.eqb v w then 0 else if Nat.eqb r v then k * nth v x 0 * nth w x 0 else 0))).
  - rewrite bigsum_plus, (bigsum_single n _ w); [|lia|intros i Hi N; destruct (Nat.eqb_spec i w); [congruence|reflexivity]]. rewrite Nat.eqb_refl.
    destruct (Nat.eqb_spec v w) as [->|N].
    + rewrite bigsum_zero. ring.
    + rewrite (bigsum_single n _ v); [|lia|intros i Hi N'; destruct (Nat.eqb_spec i v); [congruence|reflexivity]]. rewrite Nat.eqb_refl. ring.
  - intros r Hr. rewrite (bigsum_ext n _ (fun c => (if Nat.eqb r w then (if Nat.eqb c v then k * nth w x 0 * nth v x 0 else 0) else 0) +
                                  (if Nat.eqb v w then 0 else if Nat.eqb r v then (if Nat.eqb c w then k * nth v x 0 * nth w x 0 else 0) else 0))) by (intros c _; apply G).
    rewrite bigsum_plus. f_equal.
    + destruct (Nat.eqb r w); [|apply bigsum_zero]. rewrite (bigsum_single n _ v); [rewrite Nat.eqb_refl; reflexivity|lia|].
      intros i Hi N; destruct (Nat.eqb_spec i v); [congruence|reflexivity].
    + destruct (Nat.eqb v w); [apply bigsum_zero|]. destruct (Nat.eqb r v); [|apply bigsum_zero]. rewrite (bigsum_single n _ w); [rewrite Nat.eqb_refl; reflexivity|lia|].
      intros i Hi N; destruct (Nat.eqb_spec i w); [congruence|reflexivity].
Qed.
Lemma linear_sum n (e : aff R) x : Forall (fun v => (v < n)%nat) (a_vars e) ->
  bigsum n (fun i => nth i (bpmpd_linear n e) 0 * nth i x 0) = aff_value e x - a_const e.
Proof.
  intros F. rewrite <- swap_terms. unfold bpmpd_linear.
  assert (K : forall (l : list (nat * R)) o, length o = n -> Forall (fun p => (fst p < n)%nat) l ->
    bigsum n (fun i => nth i (fold_left (fun o vc => set_nth o (fst vc) (nth (fst vc) o nzero + snd vc)%num) l o) 0 * nth i x 0) =
    bigsum n (fun i => nth i o 0 * nth i x 0) + rsum (fun vc => snd vc * nth (fst vc) x 0) l).
  { induction l as [|p l IH]; intros o L G; cbn [fold_left]; [rewrite rsum_nil; lra|]. inversion G as [|? ? G1 G2]; subst.
    rewrite IH by (rewrite ?set_nth_length; auto). rewrite rsum_cons, <- Rplus_assoc. f_equal.
    transitivity (bigsum (length o) (fun i => nth i o 0 * nth i x 0 + (if Nat.eqb i (fst p) then snd p * nth (fst p) x 0 else 0))).
    - apply bigsum_ext. intros i Hi. rewrite set_nth_nth. destruct (Nat.eqb_spec i (fst p)) as [->|N]; cbn [andb]; [|lra].
      apply Nat.ltb_lt in G1. rewrite G1. rnum. lra.
    - rewrite bigsum_plus. f_equal. rewrite (bigsum_single _ _ (fst p)); [rewrite Nat.eqb_refl; reflexivity|exact G1|].
      intros i _ N. destruct (Nat.eqb_spec i (fst p)); [congruence|reflexivity]. }
  rewrite K; [|apply repeat_length|].
  - rewrite (bigsum_ext n _ (fun _ => 0)); [rewrite bigsum_zero; lra|]. intros i Hi. rewrite nth_repeat. rnum. lra.
  - apply Forall_forall. intros [v c] Hin. apply in_combine_l in Hin. rewrite Forall_forall in F. apply F. exact Hin.
Qed.

(** ** C44 *)
(** Reading of BPMPD's input (documented in bpmpd_interface.cpp 16-140, whose example is [C44_reading] below): columns of A given by counts,
    1-based rows and values; the first length(obj) bounds are those of the columns, the others those of
    A x - rhs, row by row; bounds of at least [inf] in absolute value stand for no bound; Q is given by the
    columns of its lower triangle; the objective is 1/2 x'Qx + obj'x. *)
Definition brow (d : bpm R) (x : list R) (r : nat) : R := bigsum (length (i_obj d)) (fun c => bget (i_a d) r c * nth c x 0) - nth r (i_rhs d) 0.
Definition bfeasible (inf : R) (d : bpm R) (x : list R) : Prop :=
  (forall c, (c < length (i_obj d))%nat -> above inf (nth c (i_lo d) 0) (nth c x 0) /\ below inf (nth c (i_hi d) 0) (nth c x 0)) /\
  (forall r, (r < length (i_rhs d))%nat ->
     above inf (nth (length (i_obj d) + r) (i_lo d) 0) (brow d x r) /\ below inf (nth (length (i_obj d) + r) (i_hi d) 0) (brow d x r)).
(** every column of a table lists its rows once, in increasing order, within the matrix *)
Definition bcolumns (k : bcols R) (rows : nat) : Prop :=
  Forall (fun i => (1 <= i <= rows)%nat) (k_idx k) /\ length (k_idx k) = list_sum (k_cnt k) /\ length (k_nzs k) = list_sum (k_cnt k) /\
  forall c, (c < length (k_cnt k))%nat ->
    StronglySorted lt (firstn (nth c (k_cnt k) 0%nat) (skipn (list_sum (firstn c (k_cnt k))) (k_idx k))).

Lemma flatten_columns (t : list (list (nat * R))) rows : Forall (fun col => StronglySorted lt (map fst col)) t -> Forall (Forall (fun p => (fst p < rows)%nat)) t -> bcolumns (flatten t) rows.
Proof.
  intros F FR.
  assert (L : forall {B} (f : nat * R -> B) (l : list (list (nat * R))), length (flat_map (map f) l) = list_sum (map (@length _) l)).
  { intros B f l. induction l as [|a l IH]; [reflexivity|]. cbn [flat_map map]. rewrite app_length, map_length, IH. reflexivity. }
  unfold bcolumns, flatten. cbn [k_idx k_nzs k_cnt]. rewrite map_length. split.
  { apply Forall_map, Forall_forall. intros i Hin. apply in_flat_map in Hin as (col & Hcol & Hin). apply in_map_iff in Hin as (p & <- & Hp).
    rewrite Forall_forall in FR. specialize (FR _ Hcol). rewrite Forall_forall in FR. specialize (FR _ Hp). lia. }
  split; [apply L|]. split; [apply L|]. rewrite map_length. intros c Hc.
  rewrite (nth_map_in (@length _) t c 0%nat []) by exact Hc.
  rewrite (flat_map_split (map fst) t c [] Hc), !map_app.
  rewrite firstn_map, <- (L _ fst (firstn c t)), <- (map_length S (flat_map (map fst) (firstn c t))).
  rewrite skipn_app, skipn_all, Nat.sub_diag, skipn_O, app_nil_l.
  rewrite firstn_app, !map_length, Nat.sub_diag, firstn_O, app_nil_r.
  rewrite firstn_all2 by (rewrite !map_length; lia).
  assert (So : StronglySorted lt (map fst (nth c t []))) by (rewrite Forall_forall in F; apply F, nth_In, Hc).
  revert So. generalize (map fst (nth c t [])). intros l So. induction So as [|a l So IH H1]; [constructor|]. cbn [map]. constructor; [exact IH|].
  apply Forall_map. eapply Forall_impl; [|exact H1]. cbn. lia.
Qed.

Theorem C44_bpmpd :
  forall (inf : R) (cs : list (call R)), 0 < inf -> sane inf [] [] cs ->
  forall s, bcalls inf empty_backend cs = Some s ->
  let vf := vfacts inf cs in let cf := cfacts cs in
  cnts_ok inf vf cf -> wf_quad (b_obj s) -> over_q vf (b_obj s) ->
  exists d, bpmpd_data inf (update s) = Ok d /\
    length (i_obj d) = length (live_v vf) /\ length (i_rhs d) = length (live_c cf) /\
    length (i_lo d) = (length (live_v vf) + length (live_c cf))%nat /\ length (i_hi d) = length (i_lo d) /\
    length (k_cnt (i_a d)) = length (live_v vf) /\ length (k_cnt (i_q d)) = length (live_v vf) /\
    bcolumns (i_a d) (length (live_c cf)) /\ bcolumns (i_q d) (length (live_v vf)) /\
    (forall X, bfeasible inf d (pick vf X) <->
       (forall id, In id (live_c cf) -> holds (nth id cf no_c) X) /\
       (forall id, In id (live_v vf) -> within inf (nth id vf no_v) (nth id X 0))) /\
    (forall X, quadratic (length (live_v vf)) (lower (bget (i_q d))) (i_obj d) (pick vf X) = quad_value (b_obj s) X - a_const (q_aff (b_obj s))).
Proof.
  intros inf cs Hinf Hs s E vf cf Hok W O. destruct (sim_history inf cs Hs) as (s0 & E0 & H). rewrite E in E0. injection E0 as <-. fold vf cf in H.
  assert (Eo : b_obj (update s) = b_obj s).
  { unfold update. destruct (compact _ _ _ _ _ _) as [[[? ?] ?] ?]. destruct (compact _ _ _ _ _ _) as [[[? ?] ?] ?]. reflexivity. }
  destruct (sim_update s vf cf H) as ([_ Hl Hu _ He Hi] & Ev & Ec). rewrite Ev in Hl, Hu. rewrite Ec in He, Hi.
  unfold bpmpd_data. rewrite Ev, Eo, Hl, Hu, He, Hi, map_map.
  set (n := length (live_v vf)). set (es := map _ (live_c cf)). set (q := resolve_quad (update s) (b_obj s)).
  assert (Rg : Forall (fun e => Forall (fun v => (v < n)%nat) (a_vars e)) es).
  { unfold es. apply Forall_map, Forall_forall. intros id Hid. cbn [resolve a_vars]. apply (resolve_range s vf cf); [exact H|]. apply (Hok id Hid). }
  destruct O as (O1 & O2 & O3).
  assert (R1 : Forall (fun v => (v < n)%nat) (a_vars (q_aff q))) by (apply (resolve_range s vf cf); assumption).
  assert (R2 : Forall (fun v => (v < n)%nat) (q_vars1 q)) by (apply (resolve_range s vf cf); assumption).
  assert (R3 : Forall (fun v => (v < n)%nat) (q_vars2 q)) by (apply (resolve_range s vf cf); assumption).
  assert (FB : forall l, Forall (fun v => (v < n)%nat) l -> forallb (fun i => (i <? n)%nat) l = true).
  { intros l F. apply forallb_forall. intros v Hv. apply Nat.ltb_lt. rewrite Forall_forall in F. auto. }
  replace (forallb _ es) with true.
  2: { symmetry. apply forallb_forall. intros e He'. apply FB. rewrite Forall_forall in Rg. auto. }
  rewrite !FB by assumption. cbn [andb].
  eexists. split; [reflexivity|]. cbn [i_a i_q i_rhs i_obj i_lo i_hi].
  assert (Lobj : length (bpmpd_linear n (q_aff q)) = n).
  { unfold bpmpd_linear. assert (K : forall (l : list (nat * R)) o, length (fold_left (fun o vc => set_nth o (fst vc) (nth (fst vc) o nzero + snd vc)%num) l o) = length o).
    { induction l as [|p l IH]; intros o; [reflexivity|]. cbn [fold_left]. rewrite IH. apply set_nth_length. }
    rewrite K. apply repeat_length. }
  assert (Les : length es = length (live_c cf)) by apply map_length.
  assert (FR : Forall (fun y : nat * (nat * R) => (fst y < length (repeat (@nil (nat * R)) n))%nat) (cnt_entries 0 es)).
  { rewrite repeat_length. apply Forall_forall. intros y Hy. unfold cnt_entries in Hy. apply in_flat_map in Hy as ([k e'] & Hk & Hy). apply in_map_iff in Hy as ([v w] & <- & Hv).
    apply in_combine_r in Hk. rewrite Forall_forall in Rg. specialize (Rg _ Hk). rewrite Forall_forall in Rg. apply Rg. eapply in_combine_l. exact Hv. }
  set (ents := map obj_entry (combine (q_coeffs q) (combine (q_vars1 q) (q_vars2 q)))).
  assert (FQ : Forall (fun y : nat * (nat * R) => (fst y <= fst (snd y) < n)%nat) ents).
  { unfold ents. apply Forall_map, Forall_forall. intros [c [i j]] Hin. apply in_combine_r in Hin. pose proof (in_combine_l _ _ _ _ Hin) as I1. apply in_combine_r in Hin.
    rewrite Forall_forall in R2, R3. specialize (R2 _ I1). specialize (R3 _ Hin). unfold obj_entry.
    destruct (Nat.ltb_spec i j); [cbn; lia|]. destruct (Nat.eqb_spec i j); cbn; lia. }
  assert (FQ' : Forall (fun y : nat * (nat * R) => (fst y < length (repeat (@nil (nat * R)) n))%nat) ents).
  { rewrite repeat_length. eapply Forall_impl; [|exact FQ]. cbn. lia. }
  assert (La : length (simplified (bpmpd_cnt_table n es)) = n).
  { unfold simplified. rewrite map_length, cnt_table_entries, (proj1 (pushes_get _ _ 0%nat 0%nat FR)). apply repeat_length. }
  assert (Lq : length (simplified (bpmpd_obj_table n q)) = n).
  { unfold simplified. rewrite map_length, obj_table_entries. fold ents. rewrite (proj1 (pushes_get _ _ 0%nat 0%nat FQ')). apply repeat_length. }
  split; [exact Lobj|]. split; [rewrite map_length; exact Les|].
  split; [rewrite app_length, !map_length; reflexivity|]. split; [rewrite !app_length, !map_length; reflexivity|].
  split; [unfold flatten; cbn [k_cnt]; rewrite map_length; exact La|]. split; [unfold flatten; cbn [k_cnt]; rewrite map_length; exact Lq|].
  assert (F0 : forall P : nat -> Prop, Forall (Forall (fun p : nat * R => P (fst p))) (repeat [] n)).
  { intros P. apply Forall_forall. intros col Hin. apply repeat_spec in Hin as ->. constructor. }
  split; [apply flatten_columns; [apply simplified_sorted|]|].
  { apply (simplified_range (fun i => (i < length (live_c cf))%nat)). rewrite cnt_table_entries. apply (pushes_range (fun i => (i < length (live_c cf))%nat)); [|exact (F0 (fun i => (i < length (live_c cf))%nat))].
    apply Forall_forall. intros y Hy. unfold cnt_entries in Hy. apply in_flat_map in Hy as ([k e'] & Hk & Hy). apply in_map_iff in Hy as ([v w] & <- & Hv).
    apply in_combine_l, in_seq in Hk. cbn [fst snd]. rewrite Les in Hk. lia. }
  split; [apply flatten_columns; [apply simplified_sorted|]|].
  { apply (simplified_range (fun i => (i < n)%nat)). rewrite obj_table_entries. fold ents. apply (pushes_range (fun i => (i < n)%nat)); [|exact (F0 (fun i => (i < n)%nat))].
    eapply Forall_impl; [|exact FQ]. cbn. lia. }
  split.
  - intros X. unfold bfeasible, brow. cbn [i_a i_q i_rhs i_obj i_lo i_hi]. rewrite Lobj, map_length, Les, !map_map.
    assert (V : forall p id, nth_error (live_v vf) p = Some id ->
      (above inf (nth p (map (fun x => nfmax (v_lo (nth x vf no_v)) (- inf)%num) (live_v vf) ++ map (fun x => cnt_low inf (c_ineq (nth x cf no_c)) nzero) (live_c cf)) 0) (nth p (pick vf X) 0) /\
       below inf (nth p (map (fun x => nfmin (v_hi (nth x vf no_v)) inf) (live_v vf) ++ map (fun _ => nzero) (live_c cf)) 0) (nth p (pick vf X) 0)) <->
      within inf (nth id vf no_v) (nth id X 0)).
    { intros p id Hid. destruct (nth_error_ok _ _ 0%nat _ Hid) as [Q1 Q2]. fold n in Q2.
      rewrite !app_nth1 by (rewrite map_length; exact Q2). unfold pick. rewrite !(nth_map_in _ _ p 0 0%nat) by exact Q2. rewrite Q1.
      rewrite fmax_above, fmin_below by exact Hinf. reflexivity. }
    assert (C : forall r id, nth_error (live_c cf) r = Some id -> forall v,
      bigsum n (fun c => bget (flatten (simplified (bpmpd_cnt_table n es))) r c * nth c (pick vf X) 0) - nth r (map (fun e : aff R => (- a_const e)%num) es) 0 = v ->
      (above inf (nth (n + r) (map (fun x => nfmax (v_lo (nth x vf no_v)) (- inf)%num) (live_v vf) ++ map (fun x => cnt_low inf (c_ineq (nth x cf no_c)) nzero) (live_c cf)) 0) v /\
       below inf (nth (n + r) (map (fun x => nfmin (v_hi (nth x vf no_v)) inf) (live_v vf) ++ map (fun _ => nzero) (live_c cf)) 0) v) <->
      holds (nth id cf no_c) X).
    { intros r id Hid v Hv. destruct (nth_error_ok _ _ 0%nat _ Hid) as [Q1 Q2].
      assert (Hn : nth_error es r = Some (resolve (update s) (c_expr (nth id cf no_c)))) by (unfold es; rewrite nth_error_map, Hid; reflexivity).
      rewrite (cnt_rows n es r _ (pick vf X) Rg Hn) in Hv. rewrite (nth_error_nth (map _ es) r 0 (map_nth_error _ _ _ Hn)) in Hv.
      rewrite (resolve_value s vf cf) in Hv by (try exact H; apply (Hok id); eapply nth_error_In; exact Hid).
      rewrite !app_nth2 by (rewrite map_length; unfold n; lia). rewrite !map_length. fold n. replace (n + r - n)%nat with r by lia.
      rewrite !(nth_map_in _ _ r 0 0%nat) by exact Q2. rewrite Q1. cbn [resolve a_const] in Hv. unfold holds, above, below, cnt_low in *. rnum.
      destruct (c_ineq (nth id cf no_c)); lra. }
    split.
    + intros [A B]. split.
      * intros id Hin. apply In_nth_error in Hin as (r & Hid). apply (C r id Hid _ eq_refl). apply B. apply nth_error_Some. congruence.
      * intros id Hin. apply In_nth_error in Hin as (p & Hid). apply (V p id Hid). apply A. apply nth_error_Some. congruence.
    + intros [A B]. split.
      * intros c Hc. destruct (nth_error (live_v vf) c) as [id|] eqn:Hid; [|apply nth_error_None in Hid; fold n in Hid; lia].
        apply (V c id Hid). apply B. eapply nth_error_In; exact Hid.
      * intros r Hr. destruct (nth_error (live_c cf) r) as [id|] eqn:Hid; [|apply nth_error_None in Hid; lia].
        apply (C r id Hid _ eq_refl). apply A. eapply nth_error_In; exact Hid.
  - intros X. unfold quadratic.
    rewrite (lower_form n _ _ ents FQ).
    2: { intros r c Hr Hc. rewrite bget_flatten by (rewrite Lq; exact Hc). rewrite simplified_get, obj_table_entries. fold ents. rewrite (proj2 (pushes_get _ _ r c FQ')), table0. lra. }
    rewrite (linear_sum n (q_aff q) (pick vf X) R1).
    rewrite <- (resolve_quad_value s vf cf (b_obj s) X H (conj O1 (conj O2 O3))). fold q. rewrite quad_value_sum.
    change (a_const (q_aff (b_obj s))) with (a_const (q_aff q)).
    match goal with |- / 2 * ?a + (?b - ?c) = ?b + ?e - ?c => assert (K : / 2 * a = e); [|lra] end.
    unfold ents. rewrite rsum_map, <- rsum_scal. apply rsum_ext. intros [c [i j]] _. cbn [fst snd]. unfold obj_entry.
    destruct (Nat.ltb_spec i j); [cbn [fst snd]; destruct (Nat.eqb_spec i j); [lia|field]|].
    destruct (Nat.eqb_spec i j) as [->|N]; [cbn [fst snd]; rewrite Nat.eqb_refl; field|]. cbn [fst snd]. destruct (Nat.eqb_spec j i); [lia|field].
Qed.
Print Assumptions C44_bpmpd.
(** the hypotheses are those of [C41_hyps]; the arrays for the history of [C40_ex] *)
Example C44_ex : exists s d, bcalls 1000%Q empty_backend ex_calls = Some s /\ bpmpd_data 1000%Q (update s) = Ok d /\
  i_a d = {| k_cnt := [2; 2]%nat; k_idx := [1; 2; 1; 2]%nat; k_nzs := [1; 1; 2; 1]%Q |} /\
  i_lo d = [(-1)%Q; 1%Q; (-1000)%Q; 0%Q] /\ i_hi d = [1%Q; 5%Q; 0%Q; 0%Q].
Proof. do 2 eexists. split; [vm_compute; reflexivity|]. split; [vm_compute; reflexivity|]. repeat split. Qed.

(** the example of the documentation, bpmpd_interface.cpp 96-129, read this way *)
Definition doc_example (big : R) : bpm R :=
  {| i_a := {| k_cnt := [3; 2; 2; 3]%nat; k_idx := [1; 2; 3; 1; 3; 2; 3; 1; 2; 3]%nat; k_nzs := [1; 3; 1; 2; 3; -2; 3; -4; -1; -2] |};
     i_q := {| k_cnt := [2; 1; 0; 1]%nat; k_idx := [1; 2; 2; 4]%nat; k_nzs := [2; 2; 4; 2] |};
     i_rhs := [0; 100; 10]; i_obj := [1; 0; 0; 0];
     i_lo := [0; 0; 0; - big; 0; - big; 0]; i_hi := [20; big; big; big; big; 0; 20] |}.
Example C44_reading : forall big x1 x2 x3 x4, 100 < big ->
  (bfeasible big (doc_example big) [x1; x2; x3; x4] <->
   x1 + 2 * x2 - 4 * x4 >= 0 /\ 3 * x1 - 2 * x3 - x4 <= 100 /\ 10 <= x1 + 3 * x2 + 3 * x3 - 2 * x4 <= 30 /\
   0 <= x1 <= 20 /\ 0 <= x2 /\ 0 <= x3) /\
  quadratic 4 (lower (bget (i_q (doc_example big)))) (i_obj (doc_example big)) [x1; x2; x3; x4] =
    x1 + x1 * x1 + 2 * x1 * x2 + 2 * x2 * x2 + x4 * x4.
Proof.
  intros big x1 x2 x3 x4 Hb. split.
  - unfold bfeasible, brow, above, below, bget, bigsum, rsum. cbn.
    split.
    + intros [V C].
      pose proof (V 0%nat ltac:(lia)) as V0. pose proof (V 1%nat ltac:(lia)) as V1. pose proof (V 2%nat ltac:(lia)) as V2.
      pose proof (C 0%nat ltac:(lia)) as C0. pose proof (C 1%nat ltac:(lia)) as C1. pose proof (C 2%nat ltac:(lia)) as C2.
      cbn in V0, V1, V2, C0, C1, C2. lra.
    + intros H. split.
      * intros [|[|[|[|c]]]] Hc; try lia; cbn; lra.
      * intros [|[|[|r]]] Hr; try lia; cbn; lra.
  - unfold quadratic, lower, bget, bigsum, rsum. cbn. field.
Qed.
