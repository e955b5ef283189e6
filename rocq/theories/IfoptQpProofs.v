(** * Specification vocabulary and invariant for IfoptQPProblem *)
From Coq Require Import List ZArith Bool Arith Reals Lra Lia.
From Verif Require Import Num NumFacts RSums IfoptModel IfoptProofs ExprsModel ExprsProps QpModel QpSpec QpProofs QpSlackProofs QpEvalProofs QpProps IfoptQpModel.
Import ListNotations.
Local Open Scope R_scope.

(** A set keeps its number of rows and its bounds when the variables change. *)
Definition static (t : source R) : Prop := forall x y, cm_rows (t x) = cm_rows (t y) /\ cm_bounds (t x) = cm_bounds (t y).
(** What a client can reach: any problem that has been set up, then any sequence of calls that leave
    the sets alone. *)
Inductive ireach : iqp R -> Prop :=
| ir_setup p0 p : Forall static (iq_cnts p0) -> length (iq_bnds p0) = length (iq_x p0) -> isetup p0 = Val p -> ireach p
| ir_vars p x : ireach p -> length x = length (iq_x p) -> ireach (iset_variables p x)
| ir_box p b p' : ireach p -> iset_box p b = Val p' -> ireach p'
| ir_scale p k p' : ireach p -> iscale_box p k = Val p' -> ireach p'
| ir_merit p m p' : ireach p -> iset_merit p m = Val p' -> ireach p'
| ir_conv p p' : ireach p -> iconvexify sqrt p = Val p' -> ireach p'.

(** The sets can be evaluated at the current values: sizes agree, columns exist. *)
Definition in_jac (n : nat) (c : comp R) : Prop := Forall (Forall (fun p => (fst p < n)%nat)) (cm_jac c).
Definition iusable (p : iqp R) : Prop :=
  Forall (fun c => comp_ok c /\ in_jac (length (iq_x p)) c /\ Forall proper (cm_bounds c)) (icomps p) /\
  Forall (fun t => comp_ok (t (iq_x p)) /\ in_jac (length (iq_x p)) (t (iq_x p))) (iq_raw p) /\
  Forall (fun kt => comp_ok (snd kt (iq_x p))) (iq_costs p).

(** The constraint rows and the cost rows at the current values *)
Definition cnt_rows (p : iqp R) : list crow := flat_map comp_rows (icomps p).
Definition cost_rows (p : iqp R) : list crow := flat_map (fun t => comp_rows (t (iq_x p))) (iq_raw p).
(** first order model of a row: its value plus slope times step (slopes below 1e-7 dropped) *)
Definition row_model (x0 : list R) (r : crow) (x : list R) : R := r_val r + (srow_dot (thr_row (r_jac r)) x - srow_dot (thr_row (r_jac r)) x0).

Definition good_type (t : btype) : Prop := t = Equality \/ t = LowerBound \/ t = UpperBound.
Record iinv (p : iqp R) : Prop := {
  ii_static : Forall static (iq_cnts p);
  ii_bnds : length (iq_bnds p) = length (iq_x p);
  ii_n : iq_n p = length (iq_x p);
  ii_types : iq_types p = map type_of (flat_map cm_bounds (icomps p));
  ii_good : Forall good_type (iq_types p);
  ii_ncnt : iq_ncnt p = length (iq_types p);
  ii_ncost : iq_ncost p = length (iq_costs p);
  ii_box : length (iq_box p) = iq_n p;
  ii_varb : length (iq_varb p) = iq_n p;
  ii_merit : length (iq_merit p) = iq_ncnt p }.

Lemma ct_bounds_flat (ps : list (comp R)) : ct_bounds (ct_build StackRows ps) = flat_map cm_bounds ps.
Proof. rewrite ct_build_spec. reflexivity. Qed.
Lemma good_signs (t : btype) : good_type t <-> exists s, @slack_signs R R_Num t = Some s.
Proof. destruct t; cbn; split; intros H; try (eexists; reflexivity); try (destruct H as (s & H); discriminate); unfold good_type in *; destruct H as [H|[H|H]] || idtac; try discriminate; auto. Qed.

Lemma update_box_spec (p : iqp R) b p' : iupdate_box p b = Val p' -> length b = iq_n p /\ length (iq_bnds p) = iq_n p /\ length (iq_x p) = iq_n p /\
  iq_x p' = iq_x p /\ iq_bnds p' = iq_bnds p /\ iq_raw p' = iq_raw p /\ iq_costs p' = iq_costs p /\ iq_cnts p' = iq_cnts p /\ iq_n p' = iq_n p /\ iq_ncnt p' = iq_ncnt p /\
  iq_ncost p' = iq_ncost p /\ iq_types p' = iq_types p /\ iq_box p' = b /\ iq_merit p' = iq_merit p /\ iq_varb p' = ibox_rows (iq_bnds p) (iq_x p) b.
Proof.
  unfold iupdate_box. destruct (_ && _)%bool eqn:E; [|discriminate]. intros H. injection H as <-. cbn.
  rewrite !andb_true_iff, !Nat.eqb_eq in E. destruct E as (((A & B) & C) & D). repeat split; auto.
Qed.
Lemma ibox_rows_length (bs : list (bnd R)) x b n : length bs = n -> length x = n -> length b = n -> length (ibox_rows bs x b) = n.
Proof. intros. unfold ibox_rows. rewrite map_length, !combine_length. lia. Qed.
Lemma inv_same (p p' : iqp R) : iinv p -> iq_x p' = iq_x p -> iq_bnds p' = iq_bnds p -> iq_costs p' = iq_costs p -> iq_cnts p' = iq_cnts p -> iq_n p' = iq_n p ->
  iq_ncnt p' = iq_ncnt p -> iq_ncost p' = iq_ncost p -> iq_types p' = iq_types p -> length (iq_box p') = iq_n p -> length (iq_varb p') = iq_n p ->
  length (iq_merit p') = iq_ncnt p -> iinv p'.
Proof.
  intros I E1 E2 E3 E4 E5 E6 E7 E8 E9 E10 E11. destruct I. constructor; unfold icomps; rewrite ?E1, ?E2, ?E3, ?E4, ?E5, ?E6, ?E7, ?E8; auto.
Qed.
Lemma update_inv (p : iqp R) b p' : iinv p -> iupdate_box p b = Val p' -> iinv p'.
Proof.
  intros I E. pose proof (update_box_spec p b p' E) as (L1 & L2 & L3 & E1 & E2 & E3 & E4 & E5 & E6 & E7 & E8 & E9 & E10 & E11 & E12).
  apply (inv_same p); auto; [rewrite E10; exact L1|rewrite E12; apply ibox_rows_length; auto|rewrite E11; apply ii_merit, I].
Qed.
Lemma convexify_box (p p' : iqp R) : iconvexify sqrt p = Val p' -> exists q, iupdate_box q (iq_box p) = Val p' /\ iq_x q = iq_x p /\ iq_bnds q = iq_bnds p /\
  iq_raw q = iq_raw p /\ iq_costs q = iq_costs p /\ iq_cnts q = iq_cnts p /\ iq_n q = iq_n p /\ iq_ncnt q = iq_ncnt p /\ iq_ncost q = iq_ncost p /\ iq_types q = iq_types p /\
  iq_box q = iq_box p /\ iq_merit q = iq_merit p /\ iq_varb q = iq_varb p.
Proof.
  unfold iconvexify. destruct (_ && _)%bool; [|discriminate].
  destruct (hess_loop _ _ _ _) as [h| |]; [|discriminate..]. cbn [rbind]. destruct (cost_loop _ _ _) as [g| |]; [|discriminate..]. cbn [rbind].
  destruct (slack_grad _ _) as [sg| |]; [|discriminate..]. cbn [rbind]. destruct (ct_jacobian _) as [j| |]; [|discriminate..]. cbn [rbind].
  destruct (slack_rows _ _ _) as [rows| |]; [|discriminate..]. cbn [rbind]. destruct (cost_values _) as [cv| |]; [|discriminate..]. cbn [rbind].
  destruct (ct_values _) as [kv| |]; [|discriminate..]. cbn [rbind]. destruct (_ && _)%bool; [|discriminate]. intros H. eexists. split; [exact H|]. cbn. repeat split; reflexivity.
Qed.
Lemma static_bounds (ts : list (source R)) x y : Forall static ts -> flat_map cm_bounds (map (fun t => t x) ts) = flat_map cm_bounds (map (fun t => t y) ts).
Proof. induction 1 as [|t ts Ht F IH]; [reflexivity|]. cbn. rewrite IH. f_equal. apply (Ht x y). Qed.

Lemma ireach_inv p : ireach p -> iinv p.
Proof.
  induction 1 as [p0 p S B E|p x Hp IH L|p b p' Hp IH E|p k p' Hp IH E|p m p' Hp IH E|p p' Hp IH E].
  - unfold isetup in E. unfold istack in E. rewrite ct_bounds_flat in E. destruct (forallb _ _) eqn:F in E; [|discriminate]. injection E as <-.
    constructor; cbn; auto; rewrite ?repeat_length, ?map_length; auto.
    apply Forall_map. apply Forall_forall. intros b Hb. rewrite forallb_forall in F. specialize (F b Hb). apply good_signs. destruct (slack_signs (type_of b)); [eauto|discriminate].
  - destruct IH. constructor; cbn; auto; try congruence. rewrite ii_types0. unfold icomps. cbn. f_equal. apply static_bounds; auto.
  - eapply update_inv; eauto.
  - eapply update_inv; eauto.
  - unfold iset_merit in E. destruct (_ =? _)%nat eqn:L; [|discriminate]. injection E as <-. apply Nat.eqb_eq in L. destruct IH. apply (inv_same p); auto; constructor; auto.
  - destruct (convexify_box _ _ E) as (q & Hq & Q1 & Q2 & Q3 & Q4 & Q5 & Q6 & Q7 & Q8 & Q9 & Q10 & Q11 & Q12).
    apply (update_inv q (iq_box p) p'); [|exact Hq]. destruct IH. apply (inv_same p); auto; try congruence. constructor; auto.
Qed.

(** ** Rows *)
Definition tight (r : crow) : crow := {| r_jac := thr_row (r_jac r); r_val := r_val r; r_bnd := r_bnd r; r_w := 1 |}.
Definition irows (p : iqp R) : list (R * crow) := combine (iq_merit p) (map tight (cnt_rows p)).

Lemma thr_thr (v : R) : thr (thr v) = thr v.
Proof. unfold thr. destruct (nabs v <? ndec 1 (-7))%num eqn:E; [|rewrite E; reflexivity]. destruct (nabs nzero <? ndec 1 (-7))%num; reflexivity. Qed.
Lemma thr_row_twice (r : srow R) : thr_row (thr_row r) = thr_row r.
Proof. unfold thr_row. rewrite map_map. apply map_ext. intros a. cbn. rewrite thr_thr. reflexivity. Qed.
Lemma thr_row_cols n (r : srow R) : Forall (fun p => (fst p < n)%nat) r -> Forall (fun p => (fst p < n)%nat) (thr_row r).
Proof. intros F. unfold thr_row. apply Forall_map. exact F. Qed.
Lemma linear_tight x0 r x : linear x0 (tight r) x = row_model x0 r x.
Proof. unfold linear, row_model, tight. cbn [r_val r_jac]. rewrite thr_row_twice. ring. Qed.

Lemma rows_of_spec js vs bs ws n : length js = n -> length vs = n -> length bs = n -> length ws = n ->
  length (rows_of js vs bs ws) = n /\ map r_jac (rows_of js vs bs ws) = js /\ map r_val (rows_of js vs bs ws) = vs /\ map r_bnd (rows_of js vs bs ws) = bs /\ map r_w (rows_of js vs bs ws) = ws.
Proof.
  revert vs bs ws n. induction js as [|j js IH]; intros [|v vs] [|b bs] [|w ws] n L1 L2 L3 L4; cbn in *; try lia; [auto|].
  destruct n; [lia|]. destruct (IH vs bs ws n) as (A & B & C & D & E); try lia. rewrite A, B, C, D, E. auto.
Qed.
Lemma comp_rows_spec c : comp_ok c -> length (comp_rows c) = cm_rows c /\ map r_jac (comp_rows c) = cm_jac c /\ map r_val (comp_rows c) = cm_vals c /\ map r_bnd (comp_rows c) = cm_bounds c /\ map r_w (comp_rows c) = cm_coeffs c.
Proof. intros (A & B & C & D). apply rows_of_spec; auto. Qed.
Lemma flat_rows {A} (get : comp R -> list A) (f : crow -> A) cs : (forall c, In c cs -> map f (comp_rows c) = get c) -> map f (flat_map comp_rows cs) = flat_map get cs.
Proof. induction cs as [|c cs IH]; intros H; [reflexivity|]. cbn. rewrite map_app, (H c (or_introl eq_refl)), (IH (fun c' Hc => H c' (or_intror Hc))). reflexivity. Qed.
Lemma usable_comps p : iusable p -> Forall comp_ok (icomps p).
Proof. intros (A & _). eapply Forall_impl; [|exact A]. cbn. tauto. Qed.
Lemma cnt_rows_parts p : iusable p -> map r_jac (cnt_rows p) = flat_map cm_jac (icomps p) /\ map r_val (cnt_rows p) = flat_map cm_vals (icomps p) /\ map r_bnd (cnt_rows p) = flat_map cm_bounds (icomps p).
Proof.
  intros U. pose proof (usable_comps p U) as F. rewrite Forall_forall in F. unfold cnt_rows. repeat split; apply flat_rows; intros c Hc; apply comp_rows_spec; auto.
Qed.
Lemma cnt_rows_ok p : iinv p -> iusable p -> Forall (fun r => in_cols (length (iq_x p)) r /\ typed r) (cnt_rows p).
Proof.
  intros I U. pose proof (ii_good p I) as G. rewrite (ii_types p I) in G. destruct U as (A & _). unfold cnt_rows.
  revert G A. generalize (icomps p). induction l as [|c l IH]; intros G A; [constructor|]. cbn in *. rewrite map_app in G. apply Forall_app in G. destruct G as (G1 & G2).
  inversion A as [|? ? (Ok & J & Pr) A']; subst. apply Forall_app. split; [|apply IH; auto]. destruct (comp_rows_spec c Ok) as (_ & E1 & _ & E2 & _).
  unfold in_jac in J. rewrite <- E1 in J. rewrite <- E2 in Pr, G1. rewrite !Forall_map in *. rewrite Forall_forall in *. intros r Hr. split; [exact (J r Hr)|]. split; [exact (Pr r Hr)|exact (G1 r Hr)].
Qed.
Lemma cnt_rows_length p : iinv p -> iusable p -> length (cnt_rows p) = iq_ncnt p /\ length (iq_merit p) = length (cnt_rows p).
Proof.
  intros I U. destruct (cnt_rows_parts p U) as (_ & _ & E). assert (L : length (cnt_rows p) = iq_ncnt p) by (rewrite (ii_ncnt p I), (ii_types p I), <- E, !map_length; reflexivity).
  split; [exact L|]. rewrite L. apply (ii_merit p I).
Qed.

Lemma typed_signs r : typed r -> @slack_signs R R_Num (type_of (r_bnd r)) = Some (signs r).
Proof. intros (_ & [H|[H|H]]); unfold signs; rewrite H; reflexivity. Qed.
Lemma slack_grad_spec rs : Forall typed rs -> forall ms, length ms = length rs -> slack_grad (map (fun r => type_of (r_bnd r)) rs) ms = Val (slack_costs (combine ms (map tight rs))).
Proof.
  induction 1 as [|r rs T F IH]; intros [|m ms] L; try discriminate; [reflexivity|]. cbn [map slack_grad combine]. rewrite (typed_signs r T). cbn in L. rewrite IH by lia. cbn [rbind].
  unfold slack_costs. cbn [flat_map fst snd]. do 2 f_equal. change (signs (tight r)) with (signs r). apply map_ext. intros _. cbn. ring.
Qed.
Lemma slack_rows_spec n rs : Forall typed rs -> forall ms off, length ms = length rs ->
  slack_rows (map (fun r => type_of (r_bnd r)) rs) (map r_jac rs) (n + off) = Val (placed n off (combine ms (map tight rs))).
Proof.
  induction 1 as [|r rs T F IH]; intros [|m ms] off L; try discriminate; [reflexivity|]. cbn [map slack_rows combine]. rewrite (typed_signs r T). cbn in L. rewrite <- Nat.add_assoc, (IH ms) by lia. cbn [rbind].
  cbn [placed snd]. change (signs (tight r)) with (signs r). cbn [tight r_jac]. rewrite thr_row_twice. reflexivity.
Qed.
Lemma block_placed n rs : Forall (fun r => in_cols n r) rs -> forall ms off, length ms = length rs -> block n (placed n off (combine ms (map tight rs))) = map (fun r => thr_row (r_jac r)) rs.
Proof.
  induction 1 as [|r rs T F IH]; intros [|m ms] off L; try discriminate; [reflexivity|]. cbn [map combine placed snd block]. cbn in L. f_equal; [|apply IH; lia].
  rewrite leftcols_app. cbn [tight r_jac]. rewrite thr_row_twice. rewrite leftcols_all by (apply thr_row_cols; exact T). rewrite leftcols_none; [apply app_nil_r|].
  eapply Forall_impl; [|apply seq_cols]. intros a (H & _). lia.
Qed.
Lemma kconst_spec (rs : list crow) x : vzip nsub (map r_val rs) (jac_mul (map (fun r => thr_row (r_jac r)) rs) x) = map (fun r => rconst x (tight r)) rs.
Proof. unfold vzip, jac_mul. induction rs as [|r rs IH]; [reflexivity|]. cbn [map combine fst snd]. rewrite IH. reflexivity. Qed.

(** ** Costs *)
Definition werr (r : crow) : R := r_w r * bound_error (r_bnd r) (r_val r).
Lemma no_entries_dot (j : list (srow R)) y : no_entries j = true -> forall r, In r j -> srow_dot r y = 0.
Proof.
  unfold no_entries. rewrite Nat.eqb_eq. induction j as [|r j IH]; intros E r' H'; [destruct H'|].
  change (length r + list_sum (map (@length _) j) = 0)%nat in E. destruct H' as [<-|H'].
  - destruct r; [reflexivity|cbn [length] in E; lia].
  - apply IH; auto. lia.
Qed.
Definition square_mat (n : nat) (h : list (list R)) : Prop := length h = n /\ Forall (fun r => length r = n) h.
Definition sym_mat (n : nat) (h : list (list R)) : Prop := forall i k, (i < n)%nat -> (k < n)%nat -> nth k (nth i h []) 0 = nth i (nth k h []) 0.
Definition gram (n : nat) (bw : list (srow R)) : list (list R) := map (fun i => map (fun k => vsum (map (fun r => (coeff r i * coeff r k)%num) bw)) (seq 0 n)) (seq 0 n).
Lemma gram_square n bw : square_mat n (gram n bw).
Proof. unfold gram. split; [rewrite map_length; apply seq_length|]. apply Forall_map, Forall_forall. intros i _. rewrite map_length. apply seq_length. Qed.
Lemma gram_sym n bw : sym_mat n (gram n bw).
Proof. intros i k Hi Hk. unfold gram. rewrite !nth_map_seq by assumption. rewrite !vsum_R. f_equal. apply map_ext. intros r. rnum. ring. Qed.
Lemma mzip_square n (a b : list (list R)) : square_mat n a -> square_mat n b -> square_mat n (mzip a b).
Proof.
  intros (La & Fa) (Lb & Fb). split; [unfold mzip; rewrite map_length, combine_length; lia|]. unfold mzip. apply Forall_map, Forall_forall. intros (u, v) H. cbn [fst snd].
  rewrite Forall_forall in Fa, Fb. pose proof (Fa _ (in_combine_l _ _ _ _ H)). pose proof (Fb _ (in_combine_r _ _ _ _ H)). rewrite vzip_length; congruence.
Qed.
Lemma mzip_nth n (a b : list (list R)) i k : square_mat n a -> square_mat n b -> (i < n)%nat -> (k < n)%nat ->
  nth k (nth i (mzip a b) []) 0 = nth k (nth i a []) 0 + nth k (nth i b []) 0.
Proof.
  intros (La & Fa) (Lb & Fb) Hi Hk. unfold mzip. rewrite (map_combine_nth _ a b i [] [] []) by lia. cbn [fst snd].
  rewrite Forall_forall in Fa, Fb. assert (length (nth i a []) = n) by (apply Fa, nth_In; lia). assert (length (nth i b []) = n) by (apply Fb, nth_In; lia). rewrite vzip_nth by lia. reflexivity.
Qed.
Lemma zero_square n : square_mat n (repeat (repeat 0 n) n).
Proof. split; [apply repeat_length|]. apply Forall_forall. intros r Hr. apply repeat_spec in Hr. subst. apply repeat_length. Qed.

Lemma scaled_sq (c : comp R) y : comp_ok c ->
  rsum (fun r => srow_dot r y ^ 2) (scale_rows (map (fun w => sqrt (nabs w)) (cm_coeffs c)) (cm_jac c)) = rsum (fun r => Rabs (r_w r) * srow_dot (r_jac r) y ^ 2) (comp_rows c).
Proof.
  intros Ok. destruct (comp_rows_spec c Ok) as (_ & E1 & _ & _ & E2). rewrite <- E1, <- E2. rewrite map_map. unfold scale_rows. rewrite rsum_map.
  clear. induction (comp_rows c) as [|r rs IH]; [reflexivity|]. cbn [map combine]. rewrite !rsum_cons, IH. cbn [fst snd]. f_equal. rewrite scaled_dot, Rpow_mult_distr. rnum. rewrite pow2_sqrt by apply Rabs_pos. reflexivity.
Qed.
Lemma scaled_lin (c : comp R) y : comp_ok c -> 
  rsum (fun r => srow_dot r y) (scale_rows (vzip nmul (cm_coeffs c) (map (fun bv => bound_error (fst bv) (snd bv)) (combine (cm_bounds c) (cm_vals c)))) (cm_jac c)) = rsum (fun r => werr r * srow_dot (r_jac r) y) (comp_rows c).
Proof.
  intros Ok. destruct (comp_rows_spec c Ok) as (_ & E1 & E3 & E4 & E2). rewrite <- E1, <- E2, <- E3, <- E4. unfold scale_rows, vzip. rewrite rsum_map.
  clear. induction (comp_rows c) as [|r rs IH]; [reflexivity|]. cbn [map combine]. rewrite !rsum_cons, IH. cbn [fst snd]. f_equal. rewrite scaled_dot. reflexivity.
Qed.
Lemma hess_loop_spec n cs : Forall (fun c => comp_ok c /\ in_jac n c) cs -> forall h, square_mat n h -> sym_mat n h ->
  exists h', hess_loop sqrt n cs h = Val h' /\ square_mat n h' /\ sym_mat n h' /\ forall y, length y = n ->
    qform n h' y = qform n h y + rsum (fun r => Rabs (r_w r) * srow_dot (r_jac r) y ^ 2) (flat_map comp_rows cs).
Proof.
  induction 1 as [|c cs (Ok & J) F IH]; intros h Sq Sy.
  - exists h. cbn [flat_map hess_loop]. split; [reflexivity|]. split; [exact Sq|]. split; [exact Sy|]. intros y Ly. rewrite rsum_nil. ring.
  - cbn [hess_loop flat_map]. unfold hess_step. destruct (no_entries (cm_jac c)) eqn:N.
    + cbn [rbind]. destruct (IH h Sq Sy) as (h' & E & Sq' & Sy' & V). exists h'. split; [exact E|]. split; [exact Sq'|]. split; [exact Sy'|]. intros y Ly. rewrite (V y Ly), rsum_app.
      rewrite (rsum_ext (fun r => Rabs (r_w r) * srow_dot (r_jac r) y ^ 2) (fun _ => 0) (comp_rows c)); [rewrite rsum_zero; ring|].
      intros r Hr. rewrite (no_entries_dot _ y N); [ring|]. destruct (comp_rows_spec c Ok) as (_ & E1 & _). rewrite <- E1. apply in_map, Hr.
    + pose proof Ok as (_ & L2 & L3 & _). rewrite (proj2 (Nat.leb_le _ _)) by lia. cbn [rbind]. fold (gram n (scale_rows (map (fun w => sqrt (nabs w)) (cm_coeffs c)) (cm_jac c))).
      set (g := gram n _). assert (Sg : square_mat n g) by apply gram_square.
      destruct (IH (mzip h g)) as (h' & E & Sq' & Sy' & V).
      * apply mzip_square; assumption.
      * intros i k Hi Hk. rewrite !(mzip_nth n) by assumption. rewrite (Sy i k Hi Hk). f_equal. apply gram_sym; assumption.
      * exists h'. split; [exact E|]. split; [exact Sq'|]. split; [exact Sy'|]. intros y Ly. rewrite (V y Ly), rsum_app.
        destruct Sq as (Q1 & Q2). destruct Sg as (G1 & G2). rewrite qform_mzip by assumption. unfold g, gram. rewrite gram_form by (auto; apply scale_rows_in, J). rewrite scaled_sq by exact Ok. ring.
Qed.
Lemma cost_loop_spec n cs : Forall (fun c => comp_ok c /\ in_jac n c) cs -> forall g, length g = n ->
  exists g', cost_loop n cs g = Val g' /\ length g' = n /\ forall y, length y = n ->
    vdot g' y = vdot g y + rsum (fun r => 2 * werr r * srow_dot (r_jac r) y) (flat_map comp_rows cs).
Proof.
  induction 1 as [|c cs (Ok & J) F IH]; intros g Lg.
  - exists g. split; [reflexivity|]. split; [exact Lg|]. intros y Ly. cbn [flat_map]. rewrite rsum_nil. ring.
  - cbn [cost_loop flat_map]. unfold grad_step. destruct (no_entries (cm_jac c)) eqn:N.
    + cbn [rbind]. destruct (IH g Lg) as (g' & E & L' & V). exists g'. split; [exact E|]. split; [exact L'|]. intros y Ly. rewrite (V y Ly), rsum_app.
      rewrite (rsum_ext (fun r => 2 * werr r * srow_dot (r_jac r) y) (fun _ => 0) (comp_rows c)); [rewrite rsum_zero; ring|].
      intros r Hr. rewrite (no_entries_dot _ y N); [ring|]. destruct (comp_rows_spec c Ok) as (_ & E1 & _). rewrite <- E1. apply in_map, Hr.
    + pose proof Ok as (L1 & L2 & L3 & L4). unfold bounds_errors. rewrite sized_val by congruence. cbn [rbind]. set (e := map _ (combine (cm_bounds c) (cm_vals c))).
      assert (Le : length e = cm_rows c) by (unfold e; rewrite map_length, combine_length; lia).
      rewrite !(proj2 (Nat.eqb_eq _ _)) by congruence. cbn [andb rbind].
      set (cs0 := col_sums n _). assert (Lc : length cs0 = n) by (unfold cs0, col_sums; rewrite map_length; apply seq_length).
      destruct (IH (vzip nadd g (map (fun v => (nofZ 2 * v)%num) cs0))) as (g' & E & L' & V); [rewrite vzip_length; rewrite ?map_length; congruence|].
      exists g'. split; [exact E|]. split; [exact L'|]. intros y Ly. rewrite (V y Ly), rsum_app. rewrite vdot_vzip by (rewrite ?map_length; congruence).
      replace (vdot (map (fun v => (nofZ 2 * v)%num) cs0) y) with (2 * vdot cs0 y).
      * unfold cs0. rewrite col_sums_dot by (auto; apply scale_rows_in, J). unfold e. rewrite scaled_lin by exact Ok. rewrite <- rsum_scal.
        rewrite (rsum_ext (fun a => 2 * (werr a * srow_dot (r_jac a) y)) (fun r => 2 * werr r * srow_dot (r_jac r) y)) by (intros; ring). ring.
      * rewrite !(vdot_bigsum n) by (rewrite ?map_length; congruence). rewrite <- bigsum_scal. apply bigsum_ext. intros i Hi. rewrite (nth_map_d _ cs0 i 0 0) by lia. rnum. ring.
Qed.

(** Value of a cost: sum of the squares, or of the absolute values, of the distances to the bounds. *)
Definition err (r : crow) : R := bound_error (r_bnd r) (r_val r).
Definition exact_cost (x : list R) (kt : penalty * source R) : R :=
  match fst kt with
  | PAbsolute => rsum (fun r => Rabs (err r)) (comp_rows (snd kt x))
  | _ => rsum (fun r => err r ^ 2) (comp_rows (snd kt x))
  end.
Lemma unit_weights {A} (f : A -> R) (g : R -> R -> R) (l : list A) m : m = length l ->
  vsum (map (fun p => g (fst p) (snd p)) (combine (repeat 1 m) (map f l))) = rsum (fun a => g 1 (f a)) l.
Proof. intros ->. rewrite vsum_R. unfold rsum. f_equal. induction l as [|a l IH]; [reflexivity|]. cbn [length repeat map combine fst snd]. rewrite IH. reflexivity. Qed.
Lemma rows_errors {A} (f : bnd R -> R -> A) c : comp_ok c -> map (fun p => f (fst p) (snd p)) (combine (cm_bounds c) (cm_vals c)) = map (fun r => f (r_bnd r) (r_val r)) (comp_rows c).
Proof.
  intros Ok. destruct (comp_rows_spec c Ok) as (_ & _ & E3 & E4 & _). rewrite <- E3, <- E4. clear. induction (comp_rows c) as [|r rs IH]; [reflexivity|]. cbn [map combine fst snd]. rewrite IH. reflexivity.
Qed.
Lemma cost_value_spec x kt : comp_ok (snd kt x) -> cost_value x kt = Val (exact_cost x kt).
Proof.
  destruct kt as (k, t). cbn [fst snd]. intros Ok. pose proof Ok as (L1 & L2 & L3 & L4). destruct (comp_rows_spec _ Ok) as (L5 & _). unfold cost_value, exact_cost. cbn [fst snd].
  assert (Sq : squared_cost (repeat none_ (cm_rows (t x))) (cm_vals (t x)) (cm_bounds (t x)) = Val (rsum (fun r => err r ^ 2) (comp_rows (t x)))).
  { unfold squared_cost, bounds_errors. rewrite sized_val by congruence. cbn [rbind]. rewrite rows_errors by exact Ok. rewrite repeat_length, map_length, L5, Nat.eqb_refl. f_equal.
    change (@none_ R R_Num) with 1. rewrite (unit_weights _ (fun a e => (nabs a * (e * e))%num)) by congruence. apply rsum_ext. intros r _. rnum. rewrite Rabs_R1. unfold err. ring. }
  destruct k; [exact Sq| |exact Sq].
  unfold absolute_cost, bounds_violations. rewrite sized_val by congruence. cbn [rbind]. rewrite rows_errors by exact Ok. rewrite repeat_length, map_length, L5, Nat.eqb_refl. f_equal.
  unfold vdot. change (@none_ R R_Num) with 1. assert (Er : forall m, map nabs (repeat 1 m) = repeat 1 m) by (induction m as [|m IH]; [reflexivity|]; cbn [repeat map]; rewrite IH; rnum; rewrite Rabs_R1; reflexivity).
  rewrite Er.
  rewrite (unit_weights _ (fun a e => (a * e)%num)) by congruence. apply rsum_ext. intros r _. rnum. rewrite bound_viol_abs. unfold err. ring.
Qed.

Lemma ithr_thr (v : R) : ithr v = thr v.
Proof. unfold ithr, thr. rnum. rcase; rcase; try reflexivity; lra. Qed.
Lemma ithr_mat (h : list (list R)) : map (map ithr) h = map (map thr) h.
Proof. apply map_ext. intros r. apply map_ext. apply ithr_thr. Qed.
Definition qbil (n : nat) (h : list (list R)) (x y : list R) : R := bigsum n (fun i => bigsum n (fun k => nth i x 0 * nth k (nth i h []) 0 * nth k y 0)).
Lemma qbil_mat_vec n h (x y : list R) : square_mat n h -> length x = n -> length y = n -> vdot x (mat_vec h y) = qbil n h x y.
Proof.
  intros (L & F) Lx Ly. unfold mat_vec. rewrite (vdot_bigsum n) by (rewrite ?map_length; congruence). apply bigsum_ext. intros i Hi.
  rewrite (nth_map_d _ h i 0 []) by lia. rewrite Forall_forall in F. rewrite (vdot_bigsum n) by (auto; apply F, nth_In; lia). rewrite <- bigsum_scal. apply bigsum_ext. intros; ring.
Qed.
Lemma qbil_sym n h x y : sym_mat n h -> qbil n h x y = qbil n h y x.
Proof.
  intros S. unfold qbil. rewrite bigsum_swap. apply bigsum_ext. intros i Hi. apply bigsum_ext. intros k Hk. rewrite (S i k Hi Hk). ring.
Qed.
Lemma qbil_add n h x d y : (forall i, (i < n)%nat -> nth i y 0 = nth i x 0 + nth i d 0) -> qbil n h y y = qbil n h x x + qbil n h x d + qbil n h d x + qbil n h d d.
Proof.
  intros E. unfold qbil. rewrite <- !bigsum_plus. apply bigsum_ext. intros i Hi. rewrite <- !bigsum_plus. apply bigsum_ext. intros k Hk. rewrite !E by assumption. ring.
Qed.
Lemma thr_square n h : square_mat n h -> square_mat n (map (map thr) h).
Proof. intros (L & F). split; [rewrite map_length; exact L|]. apply Forall_map. eapply Forall_impl; [|exact F]. intros r Hr. cbn. rewrite map_length. exact Hr. Qed.
Lemma thr_sym n h : sym_mat n h -> sym_mat n (map (map thr) h).
Proof. intros S i k Hi Hk. rewrite !nth_thr. rewrite (S i k Hi Hk). reflexivity. Qed.

Record iconv (p p' : iqp R) : Prop := {
  ic_x : iq_x p' = iq_x p; ic_bnds : iq_bnds p' = iq_bnds p; ic_raw : iq_raw p' = iq_raw p; ic_costs : iq_costs p' = iq_costs p; ic_cnts : iq_cnts p' = iq_cnts p;
  ic_n : iq_n p' = iq_n p; ic_ncnt : iq_ncnt p' = iq_ncnt p; ic_ncost : iq_ncost p' = iq_ncost p; ic_merit : iq_merit p' = iq_merit p;
  ic_obj : exists h g, iq_hess p' = map (map thr) h /\ square_mat (iq_n p) h /\ sym_mat (iq_n p) h /\
    (forall y, length y = iq_n p -> qform (iq_n p) h y = rsum (fun r => Rabs (r_w r) * srow_dot (r_jac r) y ^ 2) (cost_rows p)) /\
    length g = iq_n p /\ iq_grad p' = g ++ slack_costs (irows p) /\
    (forall y, length y = iq_n p -> vdot g y = rsum (fun r => 2 * werr r * srow_dot (r_jac r) y) (cost_rows p) - 2 * qbil (iq_n p) (iq_hess p') y (iq_x p)) /\
    iq_cconst p' = (if (iq_ncost p =? 0)%nat then iq_cconst p else map (fun c => c - qbil (iq_n p) (iq_hess p') (iq_x p) (iq_x p) - vdot g (iq_x p)) (map (exact_cost (iq_x p)) (iq_costs p)));
  ic_mat : iq_mat p' = placed (iq_n p) 0 (irows p) ++ map (fun i => [(i, 1)]) (seq 0 (iq_n p + length (slack_costs (irows p))));
  ic_rowb : iq_rowb p' = map (fun mr => shift (r_bnd (snd mr)) (rconst (iq_x p) (snd mr))) (irows p);
  ic_varb : iq_varb p' = ibox_rows (iq_bnds p) (iq_x p) (iq_box p);
  ic_slackb : iq_slackb p' = repeat {| b_lo := Some 0; b_hi := None |} (length (slack_costs (irows p)));
  ic_kconst : iq_kconst p' = map (fun r => rconst (iq_x p) (tight r)) (cnt_rows p) }.

Lemma map_combine_snd {A B C} (f : B -> C) (a : list A) (b : list B) : length a = length b -> map (fun p => f (snd p)) (combine a b) = map f b.
Proof. revert b. induction a as [|x a IH]; intros [|y b] L; try discriminate; [reflexivity|]. cbn in *. f_equal. apply IH. lia. Qed.
Lemma vdot_vsub (a b y : list R) : length a = length y -> length b = length y -> vdot (vzip nsub a b) y = vdot a y - vdot b y.
Proof.
  intros La Lb. rewrite !(vdot_bigsum (length y)) by (rewrite ?vzip_length; congruence). unfold Rminus. rewrite <- (Rmult_1_l (bigsum _ (fun i => nth i b 0 * _))), <- Ropp_mult_distr_l_reverse, <- bigsum_scal, <- bigsum_plus. apply bigsum_ext. intros i Hi.
  rewrite vzip_nth by lia. rnum. ring.
Qed.
Lemma vdot_comm (a b : list R) : vdot a b = vdot b a.
Proof. unfold vdot. rewrite !vsum_R. f_equal. revert b. induction a as [|x a IH]; intros [|y b]; [reflexivity..|]. cbn [combine map fst snd]. rewrite IH. f_equal. rnum. ring. Qed.
Lemma zero_qform n y : length y = n -> qform n (repeat (repeat 0 n) n) y = 0.
Proof.
  intros L. unfold qform. rewrite (bigsum_ext n _ (fun _ => 0)); [apply bigsum_zero|]. intros i Hi. rewrite (bigsum_ext n _ (fun _ => 0)); [apply bigsum_zero|]. intros k Hk.
  rewrite (nth_indep _ [] (repeat 0 n)) by (rewrite repeat_length; lia). rewrite nth_repeat, repeat_nth0. ring.
Qed.
Lemma zero_vdot n (y : list R) : length y = n -> vdot (repeat 0 n) y = 0.
Proof. intros L. rewrite (vdot_bigsum n) by (rewrite ?repeat_length; auto). rewrite (bigsum_ext n _ (fun _ => 0)); [apply bigsum_zero|]. intros i Hi. rewrite repeat_nth0. ring. Qed.

Lemma iconvexify_spec p : iinv p -> iusable p -> exists p', iconvexify sqrt p = Val p' /\ iconv p p'.
Proof.
  intros I U. pose proof (cnt_rows_ok p I U) as F. destruct (cnt_rows_length p I U) as (Lr & Lm). destruct (cnt_rows_parts p U) as (E1 & E2 & E3).
  pose proof (usable_comps p U) as Ok. pose proof (ii_n p I) as En.
  assert (Ft : Forall typed (cnt_rows p)) by (eapply Forall_impl; [|exact F]; cbn; tauto).
  assert (Fc : Forall (in_cols (iq_n p)) (cnt_rows p)) by (rewrite En; eapply Forall_impl; [|exact F]; cbn; tauto).
  assert (Et : iq_types p = map (fun r => type_of (r_bnd r)) (cnt_rows p)) by (rewrite (ii_types p I), <- E3, map_map; reflexivity).
  destruct U as (U1 & U2 & U3).
  unfold iconvexify. rewrite (proj2 (Nat.eqb_eq (length (iq_x p)) (iq_n p))) by congruence. rewrite (proj2 (Nat.eqb_eq _ _) (ii_ncnt p I)). cbn [andb].
  assert (Fr : Forall (fun c => comp_ok c /\ in_jac (iq_n p) c) (map (fun t => t (iq_x p)) (iq_raw p))) by (rewrite En; apply Forall_map; exact U2).
  destruct (hess_loop_spec (iq_n p) _ Fr (repeat (repeat 0 (iq_n p)) (iq_n p))) as (h & Eh & Sq & Sy & Vh).
  { apply zero_square. }
  { intros i k Hi Hk. rewrite !(nth_indep (repeat (repeat 0 (iq_n p)) (iq_n p)) [] (repeat 0 (iq_n p))) by (rewrite repeat_length; lia). rewrite !nth_repeat. reflexivity. }
  change nzero with 0 in *. rewrite Eh. cbn [rbind].
  destruct (cost_loop_spec (iq_n p) _ Fr (repeat 0 (iq_n p)) (repeat_length _ _)) as (g & Eg & Lg & Vg). rewrite Eg. cbn [rbind].
  assert (Rr : flat_map comp_rows (map (fun t => t (iq_x p)) (iq_raw p)) = cost_rows p) by (unfold cost_rows; clear; induction (iq_raw p); cbn; [reflexivity|]; f_equal; assumption).
  rewrite Et, slack_grad_spec by auto. cbn [rbind]. fold (irows p). unfold istack. rewrite ct_jacobian_spec by exact Ok. cbn [rbind]. rewrite <- E1.
  pose proof (slack_rows_spec (iq_n p) (cnt_rows p) Ft (iq_merit p) 0 Lm) as Es. rewrite Nat.add_0_r in Es. rewrite Es. cbn [rbind]. fold (irows p).
  unfold cost_values. rewrite (mapr_val _ (exact_cost (iq_x p))) by (intros kt Hk; apply cost_value_spec; rewrite Forall_forall in U3; apply U3, Hk). cbn [rbind].
  rewrite ct_values_spec by exact Ok. cbn [rbind]. rewrite ct_bounds_flat. rewrite <- E2, <- E3. unfold irows. rewrite block_placed by auto. fold (irows p). rewrite kconst_spec.
  rewrite !map_length, Lr, Nat.eqb_refl. cbn [andb].
  unfold iupdate_box. cbn [iq_bnds iq_n iq_x iq_varb]. rewrite (ii_bnds p I), <- En, (ii_box p I), (ii_varb p I), !Nat.eqb_refl. cbn [andb]. eexists. split; [reflexivity|].
  assert (Sq' : square_mat (iq_n p) (map (map ithr) h)) by (rewrite ithr_mat; apply thr_square, Sq).
  set (gg := vzip nsub g (map (fun v => (nofZ 2 * v)%num) (mat_vec (map (map ithr) h) (iq_x p)))).
  assert (Lmv : length (mat_vec (map (map ithr) h) (iq_x p)) = iq_n p) by (unfold mat_vec; rewrite map_length; apply Sq').
  assert (Lgg : length gg = iq_n p) by (unfold gg; rewrite vzip_length; rewrite ?map_length; congruence).
  constructor; cbn [iq_x iq_bnds iq_raw iq_costs iq_cnts iq_n iq_ncnt iq_ncost iq_merit iq_hess iq_grad iq_cconst iq_mat iq_rowb iq_varb iq_slackb iq_kconst]; auto.
  - exists h, gg. split; [apply ithr_mat|]. split; [exact Sq|]. split; [exact Sy|]. split.
    { intros y Ly. rewrite (Vh y Ly), (zero_qform _ y Ly), Rr. ring. }
    split; [exact Lgg|]. split; [reflexivity|]. split.
    + intros y Ly. unfold gg. rewrite vdot_vsub by (rewrite ?map_length; congruence). rewrite (Vg y Ly), (zero_vdot _ y Ly), Rr.
      replace (vdot (map (fun v => (nofZ 2 * v)%num) (mat_vec (map (map ithr) h) (iq_x p))) y) with (2 * vdot y (mat_vec (map (map ithr) h) (iq_x p))).
      * rewrite (qbil_mat_vec (iq_n p)) by auto. ring.
      * rewrite !(vdot_bigsum (iq_n p)) by (rewrite ?map_length; congruence). rewrite <- bigsum_scal. apply bigsum_ext. intros i Hi. rewrite (nth_map_d _ (mat_vec _ _) i 0 0) by congruence. rnum. ring.
    + destruct (_ =? 0)%nat; [reflexivity|]. apply map_ext. intros c. rewrite (qbil_mat_vec (iq_n p)) by auto. rewrite (vdot_comm _ gg). reflexivity.
  - unfold irows. rewrite (map_combine_snd (fun r => shift (r_bnd r) (rconst (iq_x p) r)) (iq_merit p)) by (rewrite map_length; exact Lm).
    rewrite map_map. clear. induction (cnt_rows p) as [|r rs IH]; [reflexivity|]. cbn [map combine fst snd]. f_equal. exact IH.
Qed.
