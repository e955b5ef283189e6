(** * Evaluation of the convex problem *)
From Coq Require Import List ZArith Bool Arith Reals Lra Lia.
From Verif Require Import Num NumFacts RSums IfoptModel IfoptProofs ExprsModel ExprsProps QpModel QpSpec QpProofs QpSlackProofs.
Import ListNotations.
Local Open Scope R_scope.

Section Viols.
  Variables (n : nat) (x0 : list R) (c : convex R) (cut : nat) (z : list R).
  (** value of a row whose slack columns start at offset [off] *)
  Variable vf : nat -> crow -> R.
  Definition prow (off : nat) (r : crow) : srow R := thr_row (r_jac r) ++ combine (seq (n + off) (length (signs r))) (signs r).
  Fixpoint viol_at (off : nat) (l : list (R * crow)) : list R :=
    match l with [] => [] | mr :: l => bound_viol (r_bnd (snd mr)) (vf off (snd mr)) :: viol_at (off + length (signs (snd mr))) l end.
  Fixpoint viols_at (off : nat) (Ls : list (list (R * crow))) : list R :=
    match Ls with [] => [] | l :: Ls => rsum (fun v => v) (viol_at off l) :: viols_at (off + length (slack_costs l)) Ls end.

  Lemma set_values off l : (forall off mr, In mr l -> rconst x0 (snd mr) + srow_dot (leftcols cut (prow off (snd mr))) z = vf off (snd mr)) ->
    bounds_violations (map (fun mr => r_bnd (snd mr)) l) (vzip nadd (map (fun mr => rconst x0 (snd mr)) l) (jac_mul (map (leftcols cut) (placed n off l)) z)) = Val (viol_at off l).
  Proof.
    intros H. unfold bounds_violations. rewrite sized_val.
    - f_equal. revert off. induction l as [|mr l IH]; intros off; [reflexivity|]. cbn [placed map jac_mul vzip combine fst snd viol_at].
      f_equal; [|apply IH; intros; apply H; right; assumption]. f_equal. apply (H off mr). left. reflexivity.
    - unfold vzip, jac_mul. rewrite !map_length, combine_length, !map_length, placed_length. lia.
  Qed.
  Lemma segment_mid {A} (a m b : list A) k : length m = k -> segment (a ++ m ++ b) (length a) k = Val m.
  Proof.
    intros L. unfold segment. rewrite !app_length. rewrite (proj2 (Nat.leb_le _ _)) by lia. f_equal.
    rewrite skipn_app, Nat.sub_diag, skipn_all, skipn_O. cbn [app]. rewrite firstn_app, <- L, Nat.sub_diag, firstn_all, firstn_O. apply app_nil_r.
  Qed.
  Lemma set_viols_spec Ls : (forall off mr, In mr (concat Ls) -> rconst x0 (snd mr) + srow_dot (leftcols cut (prow off (snd mr))) z = vf off (snd mr)) ->
    forall is off A B A' B', Forall2 (fun i l => in_rows i = length l /\ in_bounds i = map (fun mr => r_bnd (snd mr)) l) is Ls ->
    c_mat c = A ++ placed n off (concat Ls) ++ B -> c_const c = A' ++ map (fun mr => rconst x0 (snd mr)) (concat Ls) ++ B' -> length A = length A' ->
    set_viols c cut z is (length A) = Val (viols_at off Ls).
  Proof.
    induction Ls as [|l Ls IH]; intros H is off A B A' B' F Em Ec L; inversion F as [|i l' is' Ls' (Hr & Hb) F']; subst; [reflexivity|].
    cbn [concat] in *. rewrite placed_app in Em. rewrite map_app in Ec. cbn [set_viols viols_at].
    assert (Hs : forall off mr, In mr (concat Ls) -> rconst x0 (snd mr) + srow_dot (leftcols cut (prow off (snd mr))) z = vf off (snd mr)) by (intros; apply H, in_or_app; auto).
    assert (N : set_viols c cut z is' (length A + in_rows i)%nat = Val (viols_at (off + length (slack_costs l)) Ls)).
    { replace (length A + in_rows i)%nat with (length (A ++ placed n off l)) by (rewrite app_length, placed_length; lia).
      apply (IH Hs is' _ (A ++ placed n off l) B (A' ++ map (fun mr => rconst x0 (snd mr)) l) B'); auto.
      - rewrite Em, <- !app_assoc. reflexivity.
      - rewrite Ec, <- !app_assoc. reflexivity.
      - rewrite !app_length, placed_length, map_length. lia. }
    destruct (Nat.eqb_spec (in_rows i) 0) as [Z|Z].
    - rewrite Z, Nat.add_0_r in N. rewrite N. cbn [rbind]. assert (l = []) by (destruct l; [reflexivity|cbn in Hr; lia]). subst l. reflexivity.
    - rewrite Em, <- app_assoc, segment_mid by (rewrite placed_length; auto). cbn [rbind].
      rewrite Ec, L, <- app_assoc, segment_mid by (rewrite map_length; auto). cbn [rbind]. rewrite <- L.
      rewrite Hb, set_values by (intros; apply H, in_or_app; auto). cbn [rbind]. rewrite N. cbn [rbind]. f_equal. f_equal. rewrite vsum_R. unfold rsum. rewrite map_id. reflexivity.
  Qed.
End Viols.

Lemma leftcols_all n (r : srow R) : Forall (fun p => (fst p < n)%nat) r -> leftcols n r = r.
Proof. induction 1 as [|p r Hp _ IH]; [reflexivity|]. cbn [leftcols filter]. rewrite (proj2 (Nat.ltb_lt _ _) Hp). f_equal. exact IH. Qed.
Lemma leftcols_none n (r : srow R) : Forall (fun p => (n <= fst p)%nat) r -> leftcols n r = [].
Proof. induction 1 as [|p r Hp _ IH]; [reflexivity|]. cbn [leftcols filter]. rewrite (proj2 (Nat.ltb_ge _ _) Hp). exact IH. Qed.
Lemma leftcols_app n (a b : srow R) : leftcols n (a ++ b) = leftcols n a ++ leftcols n b.
Proof. apply filter_app. Qed.
Lemma seq_cols a k (ss : list R) : Forall (fun p => (a <= fst p < a + k)%nat) (combine (seq a k) ss).
Proof. apply Forall_forall. intros (i, v) H. apply in_combine_l in H. apply in_seq in H. cbn. lia. Qed.
Lemma merit_value n x0 x off r : length x = n -> in_cols n r -> rconst x0 r + srow_dot (leftcols n (prow n off r)) x = linear x0 r x.
Proof.
  intros L C. unfold prow. rewrite leftcols_app, (leftcols_all n (thr_row _)) by (unfold thr_row; apply Forall_map; exact C).
  rewrite leftcols_none, app_nil_r by (eapply Forall_impl; [|apply seq_cols]; cbn; lia). reflexivity.
Qed.
(** with every column: the slack values are those from offset [off] on *)
Lemma pen_value n x0 x s off r : length x = n -> in_cols n r -> (off + length (signs r) <= length s)%nat ->
  rconst x0 r + srow_dot (leftcols (n + length s) (prow n off r)) (x ++ s) = linear x0 r x + vdot (signs r) (skipn off s).
Proof.
  intros L C Ls. unfold prow. rewrite leftcols_all.
  - rewrite srow_dot_app, srow_dot_prefix by (unfold thr_row; apply Forall_map; rewrite L; exact C).
    rewrite <- (firstn_skipn off s) at 1. rewrite app_assoc, srow_dot_seq by (rewrite app_length, firstn_length; lia). unfold linear, rconst. ring.
  - apply Forall_app. split.
    + unfold thr_row. apply Forall_map. eapply Forall_impl; [|exact C]. cbn. lia.
    + eapply Forall_impl; [|apply seq_cols]. cbn. lia.
Qed.
Lemma viol_at_linear (f : crow -> R) l off : viol_at (fun _ => f) off l = map (fun mr => bound_viol (r_bnd (snd mr)) (f (snd mr))) l.
Proof. revert off. induction l as [|mr l IH]; intros off; [reflexivity|]. cbn [viol_at map]. rewrite IH. reflexivity. Qed.
Lemma viols_at_linear (f : crow -> R) Ls off : viols_at (fun _ => f) off Ls = map (rsum (fun mr => bound_viol (r_bnd (snd mr)) (f (snd mr)))) Ls.
Proof.
  revert off. induction Ls as [|l Ls IH]; intros off; [reflexivity|]. cbn [viols_at map]. rewrite IH, viol_at_linear. f_equal. rewrite rsum_map. reflexivity.
Qed.

(** chunks per set *)
Fixpoint merit_chunks (x : list R) (ms : list R) (k : nat) (ts : list (term R)) : list (list (R * crow)) :=
  match ts with [] => [] | t :: ts => map (pair (nth k ms 0)) (term_rows x t) :: merit_chunks x ms (if nonempty x t then S k else k) ts end.
Lemma merit_chunks_concat x ms k ts : concat (merit_chunks x ms k ts) = merit_rows x ms k ts.
Proof. revert k. induction ts as [|t ts IH]; intros k; [reflexivity|]. cbn [merit_chunks concat merit_rows]. rewrite IH. reflexivity. Qed.
Definition one_chunks (x : list R) (ts : list (term R)) : list (list (R * crow)) := map (fun t => map (pair 1) (term_rows x t)) ts.
Lemma one_chunks_concat x ts : concat (one_chunks x ts) = one_rows x ts.
Proof. unfold one_chunks, one_rows. symmetry. apply flat_map_concat_map. Qed.
Lemma rows_of_bounds js vs bs ws : length vs = length js -> length bs = length js -> length ws = length js -> map r_bnd (rows_of js vs bs ws) = bs.
Proof. revert vs bs ws. induction js; intros [|] [|] [|]; cbn; intros; try discriminate; auto. f_equal. apply IHjs; auto. Qed.
Lemma chunk_info ty n x t m : usable ty n x t -> in_rows (info_of ty (tm_at t x)) = length (map (pair m) (term_rows x t)) /\
  in_bounds (info_of ty (tm_at t x)) = map (fun mr : R * crow => r_bnd (snd mr)) (map (pair m) (term_rows x t)).
Proof.
  intros (C & _). pose proof C as (A1 & A2 & A3 & A4). rewrite map_length, term_rows_length by exact C. split; [reflexivity|]. rewrite map_map. cbn [snd info_of in_bounds].
  unfold term_rows, comp_rows. symmetry. apply rows_of_bounds; congruence.
Qed.
Lemma merit_infos n x ms ts : Forall (usable IMerit n x) ts -> forall k, Forall2 (fun i l => in_rows i = length l /\ in_bounds i = map (fun mr : R * crow => r_bnd (snd mr)) l) (infos IMerit x ts) (merit_chunks x ms k ts).
Proof. induction 1 as [|t ts U _ IH]; intros k; [constructor|]. cbn [infos map merit_chunks]. constructor; [eapply chunk_info, U|apply IH]. Qed.
Lemma one_infos ty n x ts : Forall (usable ty n x) ts -> Forall2 (fun i l => in_rows i = length l /\ in_bounds i = map (fun mr : R * crow => r_bnd (snd mr)) l) (infos ty x ts) (one_chunks x ts).
Proof. induction 1 as [|t ts U _ IH]; [constructor|]. cbn [infos map one_chunks]. constructor; [eapply chunk_info, U|apply IH]. Qed.

(** facts about every row *)
Lemma rows_of_prop (P : srow R -> Prop) (Q : bnd R -> Prop) (S : R -> Prop) js vs bs ws : Forall P js -> Forall Q bs -> Forall S ws ->
  Forall (fun r => P (r_jac r) /\ Q (r_bnd r) /\ S (r_w r)) (rows_of js vs bs ws).
Proof.
  intros Hj. revert vs bs ws. induction Hj as [|j js Pj _ IH]; intros vs bs ws Hb Hw; [constructor|]. destruct vs; [constructor|]. destruct Hb; [constructor|]. destruct Hw; [constructor|].
  cbn [rows_of]. constructor; [cbn; auto|apply IH; auto].
Qed.
Lemma usable_rows ty n x t : usable ty n x t -> Forall (fun r => in_cols n r /\ proper (r_bnd r) /\ role_type ty (type_of (r_bnd r))) (term_rows x t).
Proof.
  intros (_ & J & B). unfold term_rows, comp_rows. eapply Forall_impl; [|apply (rows_of_prop (Forall (fun p => (fst p < n)%nat)) (fun b => proper b /\ role_type ty (type_of b)) (fun _ => True)); auto].
  - cbn. tauto.
  - apply Forall_forall. auto.
Qed.
Lemma role_typed ty r : ty <> IObjective -> proper (r_bnd r) -> role_type ty (type_of (r_bnd r)) -> typed r.
Proof. intros N H T. split; [exact H|]. destruct ty; cbn in T; tauto. Qed.
Lemma one_rows_forall (P : R * crow -> Prop) x ts : (forall t r, In t ts -> In r (term_rows x t) -> P (1, r)) -> Forall P (one_rows x ts).
Proof. intros H. apply Forall_forall. intros mr Hm. unfold one_rows in Hm. apply in_flat_map in Hm. destruct Hm as (t & Ht & Hm). apply in_map_iff in Hm. destruct Hm as (r & <- & Hr). eauto. Qed.
Lemma merit_rows_forall (P : R * crow -> Prop) x ms ts : (forall m t r, In t ts -> In r (term_rows x t) -> P (m, r)) -> forall k, Forall P (merit_rows x ms k ts).
Proof.
  intros H. induction ts as [|t ts IH]; intros k; [constructor|]. cbn [merit_rows]. apply Forall_app. split.
  - apply Forall_map, Forall_forall. intros r Hr. eapply H; [left; reflexivity|exact Hr].
  - apply IH. intros; eapply H; eauto. right; assumption.
Qed.
Lemma merit_rows_coeff (P : R -> Prop) x ms ts : P 0 -> Forall P ms -> forall k, Forall (fun mr => P (fst mr)) (merit_rows x ms k ts).
Proof.
  intros P0 F. induction ts as [|t ts IH]; intros k; [constructor|]. cbn [merit_rows]. apply Forall_app. split; [|apply IH].
  apply Forall_map, Forall_forall. intros r _. cbn. destruct (nth_in_or_default k ms 0) as [I|E]; [rewrite Forall_forall in F; apply F, I|rewrite E; exact P0].
Qed.
Lemma all_rows_typed p : all_usable p -> Forall (fun mr => in_cols (length (q_x p)) (snd mr) /\ typed (snd mr)) (qp_rows p).
Proof.
  intros (_ & U2 & U3 & U4). unfold qp_rows. rewrite !Forall_app. repeat split.
  - apply one_rows_forall. intros t r Ht Hr. rewrite Forall_forall in U2. pose proof (usable_rows _ _ _ _ (U2 t Ht)) as F. rewrite Forall_forall in F. destruct (F r Hr) as (A & B & C). cbn [snd]. split; [exact A|]. apply (role_typed IHinge); auto. discriminate.
  - apply one_rows_forall. intros t r Ht Hr. rewrite Forall_forall in U3. pose proof (usable_rows _ _ _ _ (U3 t Ht)) as F. rewrite Forall_forall in F. destruct (F r Hr) as (A & B & C). cbn [snd]. split; [exact A|]. apply (role_typed IAbsolute); auto. discriminate.
  - apply merit_rows_forall. intros m t r Ht Hr. rewrite Forall_forall in U4. pose proof (usable_rows _ _ _ _ (U4 t Ht)) as F. rewrite Forall_forall in F. destruct (F r Hr) as (A & B & C). cbn [snd]. split; [exact A|]. apply (role_typed IMerit); auto. discriminate.
Qed.
