(** * Solving: from the contract of a solver to the problem that was built *)
From Coq Require Import List ZArith Bool Arith Lia Reals Lra Sorted.
From Verif Require Import Num NumFacts RSums Common ScoExprModel ScoExprProofs EigenModel EigenProofs EigenProps
  BackendModel BackendSpec BackendProofs BackendProps BpmpdProps OsqpReuseProps SolveModel SolveSpec.
Import ListNotations.
Local Open Scope R_scope.

(** ** points of the solver and values of the variables *)
Definition put (X : list R) (a : nat) (v : R) : list R := map (fun i => if (i =? a)%nat then v else nth i X 0) (seq 0 (S a + length X)).
Lemma put_nth X a v i : nth i (put X a v) 0 = if (i =? a)%nat then v else nth i X 0.
Proof.
  unfold put. destruct (Nat.lt_ge_cases i (S a + length X)) as [L|L].
  - rewrite (nth_map_in _ _ i 0 0%nat) by (rewrite seq_length; exact L). rewrite seq_nth by exact L. reflexivity.
  - rewrite nth_overflow by (rewrite map_length, seq_length; exact L). destruct (Nat.eqb_spec i a); [lia|]. rewrite nth_overflow by lia. reflexivity.
Qed.
Lemma spread l : NoDup l -> forall y : list R, length y = length l -> exists X, map (fun id => nth id X 0) l = y.
Proof.
  induction 1 as [|a l Hn Hd IH]; intros [|v y] L; try discriminate; [exists []; reflexivity|]. injection L as L.
  destruct (IH y L) as (X & <-). exists (put X a v). cbn [map]. rewrite put_nth, Nat.eqb_refl. f_equal. apply map_ext_in. intros id Hid.
  rewrite put_nth. destruct (Nat.eqb_spec id a) as [->|]; [contradiction|reflexivity].
Qed.
Lemma live_nodup (vf : list (vfact R)) : NoDup (live_v vf).
Proof. apply sorted_nodup, sorted_filter, sorted_seq. Qed.
Lemma pick_length vf X : length (pick vf X) = length (live_v vf).
Proof. apply map_length. Qed.
Lemma pick_any vf (y : list R) : length y = length (live_v vf) -> exists X, pick vf X = y.
Proof. apply spread, live_nodup. Qed.
Lemma values_pick inf cs b sol X : sim b (vfacts inf cs) (cfacts cs) -> length sol = length (live_v (vfacts inf cs)) ->
  has_values inf cs (update b) sol X <-> sol = pick (vfacts inf cs) X.
Proof.
  intros H L. unfold has_values, get_value. split.
  - intros G. apply (nth_ext _ _ 0 0); [rewrite pick_length; exact L|]. intros p Hp. rewrite L in Hp.
    destruct (nth_error (live_v (vfacts inf cs)) p) as [id|] eqn:Hid; [|apply nth_error_None in Hid; lia].
    specialize (G id (nth_error_In _ _ Hid)). rewrite (live_v_index _ _ _ p id H Hid) in G. rewrite (nth_error_nth _ _ _ G).
    unfold pick. rewrite (nth_map_in _ _ p 0 0%nat) by exact Hp. rewrite (nth_error_nth _ _ _ Hid). reflexivity.
  - intros -> id Hin. apply In_nth_error in Hin as (p & Hid). rewrite (live_v_index _ _ _ p id H Hid). unfold pick. rewrite nth_error_map, Hid. reflexivity.
Qed.

(** ** a view of the arrays: the same constraints and the same objective up to a constant *)
Record view (inf : R) (cs : list (call R)) (q : quad R) (fit : R -> list R -> Prop) (value : list R -> R) : Prop := {
  vw_fit : forall eps X, fit eps (pick (vfacts inf cs) X) <-> fits_problem inf eps cs X;
  vw_value : exists k, forall X, value (pick (vfacts inf cs) X) = quad_value q X - k }.
Lemma view_answer inf cs q fit value eps delta X : view inf cs q fit value ->
  answer (length (live_v (vfacts inf cs))) fit value eps delta (pick (vfacts inf cs) X) <-> solves_problem inf eps delta cs q X.
Proof.
  intros [F (k & V)]. unfold answer, solves_problem. rewrite F. apply and_iff_compat_l. split.
  - intros A Y HY. specialize (A (pick (vfacts inf cs) Y) (pick_length _ _) (proj2 (F 0 Y) HY)). rewrite !V in A. lra.
  - intros A y L HY. destruct (pick_any _ y L) as (Y & <-). specialize (A Y (proj1 (F 0 Y) HY)). rewrite !V. lra.
Qed.
Lemma view_no_point inf cs q fit value : view inf cs q fit value ->
  no_point (length (live_v (vfacts inf cs))) fit -> forall X, ~ fits_problem inf 0 cs X.
Proof. intros [F _] N X HX. apply (N (pick (vfacts inf cs) X) (pick_length _ _)). apply F, HX. Qed.
Lemma view_no_answer inf cs q fit value : view inf cs q fit value ->
  no_answer (length (live_v (vfacts inf cs))) fit value -> unsolvable inf cs q.
Proof.
  intros [F (k & V)] N X HX low. destruct (N (pick (vfacts inf cs) X) (pick_length _ _) (proj2 (F 0 X) HX) (low - k)) as (z & L & Hz & Hlow).
  destruct (pick_any _ z L) as (Z & <-). exists Z. split; [apply F, Hz|]. rewrite V in Hlow. lra.
Qed.
Lemma empty_unsolvable inf cs q : (forall X, ~ fits_problem inf 0 cs X) -> unsolvable inf cs q.
Proof. intros N X HX. destruct (N X HX). Qed.
Lemma view_solvable inf cs q fit value : view inf cs q fit value ->
  (exists X, solves_problem inf 0 0 cs q X) -> solvable (length (live_v (vfacts inf cs))) fit value.
Proof. intros V (X & HX). exists (pick (vfacts inf cs) X). split; [apply pick_length|]. apply (view_answer inf cs q fit value 0 0 X V), HX. Qed.

(** ** the objective *)
Lemma bcalls_app inf (s : backend R) a b : bcalls inf s (a ++ b) = match bcalls inf s a with Some s => bcalls inf s b | None => None end.
Proof. revert s. induction a as [|c a IH]; intros s; [reflexivity|]. cbn [app bcalls]. destruct (bcall inf s c); [apply IH|reflexivity]. Qed.
Lemma update_obj (s : backend R) : b_obj (update s) = b_obj s.
Proof. unfold update. destruct (compact _ _ _ _ _ _) as [[[? ?] ?] ?]. destruct (compact _ _ _ _ _ _) as [[[? ?] ?] ?]. reflexivity. Qed.
Lemma objective_held inf cs : forall (s s' : backend R) o q, (forall q, o = Some q -> b_obj s = q) -> bcalls inf s cs = Some s' -> fold_left note_o cs o = Some q -> b_obj s' = q.
Proof.
  induction cs as [|c cs IH]; intros s s' o q H E F; cbn [bcalls fold_left] in *; [injection E as <-; apply H, F|].
  destruct (bcall inf s c) as [s1|] eqn:E1; [|discriminate]. apply (IH s1 s' (note_o o c) q); auto. clear IH E F. intros q' Hq'.
  destruct c; cbn [bcall note_o] in *; try (injection E1 as <-; exact (H q' Hq')).
  - unfold set_bounds in E1. destruct (_ <? _)%nat; [|discriminate]. injection E1 as <-. exact (H q' Hq').
  - discriminate.
  - injection E1 as <-. injection Hq' as <-. reflexivity.
  - injection E1 as <-. rewrite update_obj. exact (H q' Hq').
Qed.
Lemma built inf cs q : well_posed inf cs q -> forall b, bcalls inf empty_backend cs = Some b ->
  sim b (vfacts inf cs) (cfacts cs) /\ b_obj b = q.
Proof.
  intros (_ & Hs & _ & Ho & _) b E. destruct (sim_history inf cs Hs) as (b' & E' & H). rewrite E in E'. injection E' as <-. split; [exact H|].
  apply (objective_held inf cs empty_backend b (Some (quad_const 0)) q); auto. intros q' [= <-]. reflexivity.
Qed.

(** ** rows with a tolerance *)
Lemma fmax_near inf eps l u v : 0 < inf -> near inf eps (nfmax l (- inf)%num) (nfmin u inf) v <-> near inf eps l u v.
Proof. intros H. rewrite nfmax_R, nfmin_R. rnum. unfold near, Rmax, Rmin. destruct (Rle_dec l (- inf)), (Rle_dec u inf); lra. Qed.

(** a constraint as a row of value [v] = [k] + expression, with the right-hand side [k] *)
Lemma cnt_near inf eps c X k : 0 < inf -> - inf < k < inf ->
  near inf eps (cnt_low inf (c_ineq c) k) k (k + aff_value (c_expr c) X) <-> holds_near eps c X.
Proof. intros H K. unfold near, holds_near, cnt_low. rnum. destruct (c_ineq c); lra. Qed.

Definition lows (inf : R) (cf : list (cfact R)) (b : list R) : list R :=
  map (fun tv : bool * R => cnt_low inf (fst tv) (snd tv)) (combine (map (fun id => c_ineq (nth id cf no_c)) (live_c cf)) b).
Lemma lows_length inf cf b : length b = length (live_c cf) -> length (lows inf cf b) = length (live_c cf).
Proof. intros L. unfold lows. rewrite map_length, combine_length, map_length, L. lia. Qed.
Lemma lows_nth inf cf b i id : length b = length (live_c cf) -> nth_error (live_c cf) i = Some id -> nth i (lows inf cf b) 0 = cnt_low inf (c_ineq (nth id cf no_c)) (nth i b 0).
Proof.
  intros L Hid. destruct (nth_error_ok _ _ 0%nat _ Hid) as [Q1 Q2]. unfold lows.
  rewrite (nth_map_in _ _ i 0 (false, 0)) by (rewrite combine_length, map_length, L; lia).
  rewrite combine_nth by (rewrite map_length, L; reflexivity). cbn [fst snd]. rewrite (nth_map_in _ _ i false 0%nat) by exact Q2. rewrite Q1. reflexivity.
Qed.
Lemma in_index {A} (P : A -> Prop) (l : list A) : (forall a, In a l -> P a) <-> (forall i a, nth_error l i = Some a -> P a).
Proof. split; [intros H i a E; apply H; eapply nth_error_In; exact E|intros H a Hin; apply In_nth_error in Hin as (i & E); exact (H i a E)]. Qed.
Lemma below_index {A} (l : list A) (P : nat -> Prop) : (forall i, (i < length l)%nat -> P i) <-> (forall i a, nth_error l i = Some a -> P i).
Proof.
  split; [intros H i a E; apply H, nth_error_Some; congruence|]. intros H i Hi. destruct (nth_error l i) as [a|] eqn:E; [exact (H i a E)|].
  apply nth_error_None in E. lia.
Qed.

Lemma osqp_view inf cs q b : well_posed inf cs q -> sim b (vfacts inf cs) (cfacts cs) -> b_obj b = q ->
  exists P g A l u, osqp_objective (update b) = Ok (Some (P, g)) /\ osqp_constraints inf (update b) = Ok (Some (A, l, u)) /\
    m_cols P = length (live_v (vfacts inf cs)) /\
    let w := {| w_P := P; w_q := g; w_A := A; w_l := l; w_u := u |} in view inf cs q (osqp_fit inf w) (osqp_value w).
Proof.
  intros (Hinf & Hs & Hok & _ & Wq & Oq) H Eo. set (vf := vfacts inf cs) in *. set (cf := cfacts cs) in *.
  destruct (sim_history inf cs Hs) as (b0 & E0 & H').
  destruct (converted b vf cf H) as (A & v & EA & LA & WA & Ev' & V).
  { intros id Hid. destruct (Hok id Hid) as (W & O & _). split; assumption. }
  destruct (sim_update b vf cf H) as ([_ Hl Hu _ _ Hi] & Ev & Ec). rewrite Ev in Hl, Hu. rewrite Ec in Hi.
  unfold osqp_objective. rewrite update_obj, Eo, Ev. destruct (quad_data b vf cf q false H Wq Oq) as (P & g & EP). rewrite EP. cbn [obind].
  unfold osqp_constraints. rewrite Ev, Ec, EA, Hl, Hu, Hi. cbn [obind]. fold (lows inf cf v).
  do 5 eexists. split; [reflexivity|]. split; [reflexivity|]. split; [reflexivity|]. cbv zeta.
  set (n := length (live_v vf)) in *. set (m := length (live_c cf)) in *.
  assert (Lb : length v = m) by (rewrite Ev'; apply map_length).
  constructor.
  - intros eps X. unfold osqp_fit. fold vf. set (row := activity _ (pick vf X)). cbv zeta. cbn [w_A w_l w_u m_rows m_cols m_csc] in *.
    assert (Rc : forall i id, nth_error (live_c cf) i = Some id -> row i = nth i v 0 + aff_value (c_expr (nth id cf no_c)) X).
    { intros i id Hid. rewrite <- (V i id X Hid). unfold row, activity. cbn [m_cols m_csc]. apply bigsum_ext. intros c Hc. f_equal.
      rewrite (to_csc_get (m + n)) by (try apply bound_cols_wf; rewrite ?bound_cols_length; auto; lia).
      rewrite bound_cols_entry by (auto; lia). destruct (nth_error_ok _ _ 0%nat _ Hid) as [_ Q].
      destruct (Nat.eqb_spec (m + c) i); [unfold m in *; lia|lra]. }
    assert (Rv : forall p id, nth_error (live_v vf) p = Some id -> row (m + p)%nat = nth id X 0).
    { intros p id Hid. unfold row, activity. cbn [m_cols m_csc]. destruct (nth_error_ok _ _ 0%nat _ Hid) as [Q1 Q2]. fold n in Q2. rewrite (bigsum_single n _ p Q2).
      - rewrite (to_csc_get (m + n)) by (try apply bound_cols_wf; rewrite ?bound_cols_length; auto; lia).
        rewrite bound_cols_entry by (auto; lia). rewrite Nat.eqb_refl, (entry_beyond m) by (auto; lia).
        unfold pick. rewrite (nth_map_in _ _ p 0 0%nat) by exact Q2. rewrite Q1. lra.
      - intros c Hc Hne. rewrite (to_csc_get (m + n)) by (try apply bound_cols_wf; rewrite ?bound_cols_length; auto; lia).
        rewrite bound_cols_entry by (auto; lia). rewrite (entry_beyond m) by (auto; lia). destruct (Nat.eqb_spec (m + c) (m + p)); [lia|lra]. }
    clearbody row. transitivity ((forall i, (i < m)%nat -> near inf eps (nth i (lows inf cf v) 0) (nth i v 0) (row i)) /\
      (forall p, (p < n)%nat -> near inf eps (nth p (map (fun l => nfmax l (- inf)%num) (map (fun id => v_lo (nth id vf no_v)) (live_v vf))) 0)
                                             (nth p (map (fun u => nfmin u inf) (map (fun id => v_hi (nth id vf no_v)) (live_v vf))) 0) (row (m + p)%nat))).
    { split.
      - intros G. split; intros i Hi'.
        + specialize (G i ltac:(lia)). rewrite !app_nth1 in G by (rewrite ?lows_length, ?Lb; auto; lia). exact G.
        + specialize (G (m + i)%nat ltac:(lia)). rewrite !app_nth2 in G by (rewrite ?lows_length, ?Lb; auto; fold m; lia). rewrite lows_length, Lb in G by exact Lb. fold m in G.
          replace (m + i - m)%nat with i in G by lia. exact G.
      - intros [G1 G2] r Hr. destruct (Nat.lt_ge_cases r m) as [Q|Q].
        + rewrite !app_nth1 by (rewrite ?lows_length, ?Lb; auto; lia). apply G1, Q.
        + rewrite !app_nth2 by (rewrite ?lows_length, ?Lb; auto; fold m; lia). rewrite lows_length, Lb by exact Lb. fold m.
          replace r with (m + (r - m))%nat at 3 by lia. apply G2. lia. }
    unfold fits_problem. fold vf cf. rewrite !in_index. unfold m, n. rewrite !below_index. rewrite !map_map.
    split; intros [G1 G2]; split; intros i id Hid.
    + specialize (G1 i id Hid). rewrite (lows_nth inf cf v i id Lb Hid), (Rc i id Hid) in G1. apply (cnt_near inf eps _ X (nth i v 0) Hinf); [|exact G1].
      destruct (nth_error_ok _ _ 0%nat _ Hid) as [Q1 Q2]. rewrite Ev', (nth_map_in _ _ i 0 0%nat) by exact Q2. rewrite Q1.
      destruct (Hok id (nth_error_In _ _ Hid)) as (_ & _ & B). lra.
    + specialize (G2 i id Hid). fold m in G2. rewrite (Rv i id Hid) in G2. destruct (nth_error_ok _ _ 0%nat _ Hid) as [Q1 Q2].
      rewrite !(nth_map_in _ _ i 0 0%nat) in G2 by exact Q2. rewrite Q1 in G2. apply (proj1 (fmax_near inf eps _ _ _ Hinf)) in G2. exact G2.
    + specialize (G1 i id Hid). rewrite (lows_nth inf cf v i id Lb Hid), (Rc i id Hid). apply (cnt_near inf eps _ X (nth i v 0) Hinf); [|exact G1].
      destruct (nth_error_ok _ _ 0%nat _ Hid) as [Q1 Q2]. rewrite Ev', (nth_map_in _ _ i 0 0%nat) by exact Q2. rewrite Q1.
      destruct (Hok id (nth_error_In _ _ Hid)) as (_ & _ & B). lra.
    + specialize (G2 i id Hid). fold m. rewrite (Rv i id Hid). destruct (nth_error_ok _ _ 0%nat _ Hid) as [Q1 Q2].
      rewrite !(nth_map_in _ _ i 0 0%nat) by exact Q2. rewrite Q1. apply (proj2 (fmax_near inf eps _ _ _ Hinf)). exact G2.
  - exists (a_const (q_aff q)). intros X. unfold osqp_value. cbn [w_P w_q m_cols m_csc].
    destruct (C34_osqp_arrays _ _ _ P g (resolve_quad_wf _ _ Wq) EP) as (_ & _ & V'). specialize (V' (pick vf X)).
    rewrite (resolve_quad_value b vf cf q X H Oq) in V'. cbn [resolve_quad q_aff resolve a_const] in V'. fold n in V'. rewrite <- V'. reflexivity.
Qed.

Lemma qpoases_view inf cs q b : well_posed inf cs q -> sim b (vfacts inf cs) (cfacts cs) -> b_obj b = q ->
  exists d, qpoases_data inf (update b) = Ok (Some d) /\ m_cols (p_H d) = length (live_v (vfacts inf cs)) /\ m_rows (p_A d) = length (live_c (cfacts cs)) /\
    view inf cs q (qpo_fit inf d) (qpo_value d).
Proof.
  intros (Hinf & Hs & Hok & _ & Wq & Oq) H Eo. set (vf := vfacts inf cs) in *. set (cf := cfacts cs) in *.
  destruct (converted b vf cf H) as (A & v & EA & LA & WA & Ev' & V).
  { intros id Hid. destruct (Hok id Hid) as (W & O & _). split; assumption. }
  destruct (sim_update b vf cf H) as ([_ Hl Hu _ _ Hi] & Ev & Ec). rewrite Ev in Hl, Hu. rewrite Ec in Hi.
  unfold qpoases_data. rewrite update_obj, Eo, Ev, Ec. destruct (quad_data b vf cf q true H Wq Oq) as (P & g & EP). rewrite EP, EA, Hl, Hu, Hi. cbn [obind]. fold (lows inf cf v).
  eexists. split; [reflexivity|]. cbn [p_H p_A m_cols m_rows]. split; [reflexivity|]. split; [reflexivity|].
  set (n := length (live_v vf)) in *. set (m := length (live_c cf)) in *.
  assert (Lb : length v = m) by (rewrite Ev'; apply map_length).
  constructor.
  - intros eps X. unfold qpo_fit. fold vf. set (row := activity _ (pick vf X)). cbv zeta. cbn [p_A p_lb p_ub p_lbA p_ubA m_rows m_cols m_csc] in *.
    assert (Rc : forall i id, nth_error (live_c cf) i = Some id -> row i = nth i v 0 + aff_value (c_expr (nth id cf no_c)) X).
    { intros i id Hid. rewrite <- (V i id X Hid). unfold row, activity. cbn [m_cols m_csc]. apply bigsum_ext. intros c Hc. f_equal. apply (to_csc_get m); auto; lia. }
    clearbody row. unfold fits_problem. fold vf cf. rewrite map_length, !in_index. unfold m. rewrite !below_index.
    split; intros [G1 G2]; split; intros i id Hid.
    + specialize (G2 i id Hid). rewrite (lows_nth inf cf v i id Lb Hid), (Rc i id Hid) in G2. apply (cnt_near inf eps _ X (nth i v 0) Hinf); [|exact G2].
      destruct (nth_error_ok _ _ 0%nat _ Hid) as [Q1 Q2]. rewrite Ev', (nth_map_in _ _ i 0 0%nat) by exact Q2. rewrite Q1.
      destruct (Hok id (nth_error_In _ _ Hid)) as (_ & _ & B). lra.
    + specialize (G1 i id Hid). destruct (nth_error_ok _ _ 0%nat _ Hid) as [Q1 Q2]. unfold pick in G1.
      rewrite !(nth_map_in _ _ i 0 0%nat) in G1 by exact Q2. rewrite Q1 in G1. exact G1.
    + specialize (G2 i id Hid). destruct (nth_error_ok _ _ 0%nat _ Hid) as [Q1 Q2]. unfold pick.
      rewrite !(nth_map_in _ _ i 0 0%nat) by exact Q2. rewrite Q1. exact G2.
    + specialize (G1 i id Hid). rewrite (lows_nth inf cf v i id Lb Hid), (Rc i id Hid). apply (cnt_near inf eps _ X (nth i v 0) Hinf); [|exact G1].
      destruct (nth_error_ok _ _ 0%nat _ Hid) as [Q1 Q2]. rewrite Ev', (nth_map_in _ _ i 0 0%nat) by exact Q2. rewrite Q1.
      destruct (Hok id (nth_error_In _ _ Hid)) as (_ & _ & B). lra.
  - exists (a_const (q_aff q)). intros X. unfold qpo_value. cbn [p_H p_g m_cols m_csc].
    destruct (quad_to_eigen_spec _ _ _ _ P g (resolve_quad_wf _ _ Wq) EP) as (LP & WP & _ & _ & V'). specialize (V' (pick vf X)).
    rewrite (resolve_quad_value b vf cf q X H Oq) in V'. cbn [resolve_quad q_aff resolve a_const] in V'. rewrite <- V'.
    unfold quadratic, qform. f_equal. f_equal. apply bigsum_ext. intros r Hr. apply bigsum_ext. intros c Hc.
    rewrite (to_csc_get (length (live_v vf))) by (auto; lia). reflexivity.
Qed.

Lemma bpmpd_view inf cs q b : well_posed inf cs q -> bcalls inf empty_backend cs = Some b ->
  exists d, bpmpd_data inf (update b) = Ok d /\ length (i_obj d) = length (live_v (vfacts inf cs)) /\ view inf cs q (bpm_fit inf d) (bpm_value d).
Proof.
  intros WP E. destruct (built inf cs q WP b E) as [H Eo]. destruct WP as (Hinf & Hs & Hok & _ & Wq & Oq). set (vf := vfacts inf cs) in *. set (cf := cfacts cs) in *.
  destruct (C44_bpmpd inf cs Hinf Hs b E Hok) as (d & ED & L1 & L2 & L3 & L4 & _ & _ & _ & _ & _ & V); [rewrite Eo; exact Wq|rewrite Eo; exact Oq|].
  exists d. split; [exact ED|]. fold vf cf in L1, L2, L3, L4. split; [exact L1|]. constructor.
  - intros eps X. unfold bpm_fit. fold vf. set (row := brow d (pick vf X)). cbv zeta. rewrite L1, L2.
    destruct (sim_update b vf cf H) as ([_ Hl Hu _ He Hi] & Ev & Ec). rewrite Ev in Hl, Hu. rewrite Ec in He, Hi.
    set (n := length (live_v vf)) in *. set (es := map (resolve (update b)) (b_exprs (update b))).
    assert (Hn : forall r id, nth_error (live_c cf) r = Some id -> nth_error es r = Some (resolve (update b) (c_expr (nth id cf no_c)))).
    { intros r id Hid. unfold es. rewrite He, map_map, nth_error_map, Hid. reflexivity. }
    assert (Rg : Forall (fun e => Forall (fun v => (v < n)%nat) (a_vars e)) es).
    { unfold es. rewrite He, map_map. apply Forall_map, Forall_forall. intros id Hid. cbn [resolve a_vars]. apply (resolve_range b vf cf); [exact H|]. apply (Hok id Hid). }
    unfold bpmpd_data in ED. rewrite Ev in ED. fold n es in ED. destruct (_ && _)%bool in ED; [|discriminate]. injection ED as ED.
    assert (Rc : forall r id, nth_error (live_c cf) r = Some id -> row r = aff_value (c_expr (nth id cf no_c)) X).
    { intros r id Hid. unfold row, brow. rewrite L1. rewrite <- ED. cbn [i_a i_rhs].
      rewrite (cnt_rows n es r _ (pick vf X) Rg (Hn r id Hid)). rewrite (nth_error_nth (map _ es) r 0 (map_nth_error _ _ _ (Hn r id Hid))).
      rewrite (resolve_value b vf cf) by (try exact H; apply (Hok id); eapply nth_error_In; exact Hid). cbn [resolve a_const]. rnum. lra. }
    clearbody row. rewrite <- ED. cbn [i_lo i_hi]. rewrite Hl, Hu, Hi, !map_map.
    unfold fits_problem. fold vf cf. rewrite !in_index. unfold n. rewrite !below_index.
    assert (NV : forall i id, nth_error (live_v vf) i = Some id ->
      near inf eps (nth i (map (fun x => nfmax (v_lo (nth x vf no_v)) (- inf)%num) (live_v vf) ++ map (fun x => cnt_low inf (c_ineq (nth x cf no_c)) nzero) (live_c cf)) 0)
                   (nth i (map (fun x => nfmin (v_hi (nth x vf no_v)) inf) (live_v vf) ++ map (fun _ => nzero) (live_c cf)) 0) (nth i (pick vf X) 0) <->
      near inf eps (v_lo (nth id vf no_v)) (v_hi (nth id vf no_v)) (nth id X 0)).
    { intros i id Hid. destruct (nth_error_ok _ _ 0%nat _ Hid) as [Q1 Q2]. rewrite !app_nth1 by (rewrite map_length; exact Q2). unfold pick.
      rewrite !(nth_map_in _ _ i 0 0%nat) by exact Q2. rewrite Q1. apply fmax_near, Hinf. }
    assert (NC : forall i id, nth_error (live_c cf) i = Some id ->
      near inf eps (nth (length (live_v vf) + i) (map (fun x => nfmax (v_lo (nth x vf no_v)) (- inf)%num) (live_v vf) ++ map (fun x => cnt_low inf (c_ineq (nth x cf no_c)) nzero) (live_c cf)) 0)
                   (nth (length (live_v vf) + i) (map (fun x => nfmin (v_hi (nth x vf no_v)) inf) (live_v vf) ++ map (fun _ => nzero) (live_c cf)) 0) (row i) <->
      holds_near eps (nth id cf no_c) X).
    { intros i id Hid. destruct (nth_error_ok _ _ 0%nat _ Hid) as [Q1 Q2]. rewrite !app_nth2 by (rewrite map_length; lia). rewrite !map_length.
      replace (length (live_v vf) + i - length (live_v vf))%nat with i by lia. rewrite !(nth_map_in _ _ i 0 0%nat) by exact Q2. rewrite Q1, (Rc i id Hid).
      rewrite <- (cnt_near inf eps (nth id cf no_c) X 0 Hinf) by lra. rewrite Rplus_0_l. reflexivity. }
    split; intros [G1 G2]; split; intros i id Hid.
    + apply (NC i id Hid), (G2 i id Hid).
    + apply (NV i id Hid), (G1 i id Hid).
    + apply (NV i id Hid), (G2 i id Hid).
    + apply (NC i id Hid), (G1 i id Hid).
  - exists (a_const (q_aff (b_obj b))). intros X. rewrite <- Eo. unfold bpm_value. rewrite L1. apply V.
Qed.

(** ** what a program has built *)
Lemma bound_ok {A} (o : option A) a : bound o = Ok a -> o = Some a.
Proof. destruct o; [intros [= <-]; reflexivity|discriminate]. Qed.
Lemma osqp_optimize_b inf sz up warm r (s s' : omodel R) st : osqp_optimize inf sz up warm r s = Ok (s', st) -> om_b s' = update (om_b s).
Proof.
  unfold osqp_optimize. destruct (create_or_update _ _ _ _ _ _ _ _ _ _) as [[o ok]| |]; cbn [obind]; try discriminate. cbn [fst snd].
  destruct ok; [|intros [= <- _]; reflexivity]. destruct (o_ws o) as [w|]; [|discriminate]. destruct (or_solve r w) as [[ok st'] x].
  destruct ok; [|intros [= <- _]; reflexivity]. destruct (_ <=? _)%nat; [|discriminate]. intros [= <- _]. reflexivity.
Qed.
Lemma qpoases_optimize_b (Q : sqproblem R) inf (s s' : qmodel Q) st : qpoases_optimize Q inf s = Ok (Returns (s', st)) -> qm_b Q s' = update (qm_b Q s).
Proof.
  unfold qpoases_optimize. destruct (qpoases_data _ _) as [[d|]| |]; cbn [obind]; try discriminate.
  destruct (if sq_ready Q _ then _ else _) as [[p v] k]. destruct v; [|destruct (sq_init _ _ _ _) as [[p' v'] k']; destruct v'..]; intros [= <- _]; reflexivity.
Qed.
Lemma bpmpd_optimize_b inf f (s s' : bmodel R) st : bpmpd_optimize inf f s = Ok (s', st) -> bm_b s' = update (bm_b s).
Proof.
  unfold bpmpd_optimize. destruct (bpmpd_data _ _) as [d| |]; cbn [obind]; try discriminate. destruct (f d) as [x c]. destruct (_ <=? _)%nat; [|discriminate].
  intros [= <- _]. reflexivity.
Qed.
Lemma osqp_steps_b inf sz up warm ps : forall s s' : omodel R, osqp_steps inf sz up warm s ps = Ok s' -> bcalls inf (om_b s) (calls_of ps) = Some (om_b s').
Proof.
  induction ps as [|p ps IH]; intros s s' E; cbn [osqp_steps calls_of map bcalls] in *; [injection E as <-; reflexivity|].
  destruct (osqp_step inf sz up warm s p) as [s1| |] eqn:E1; cbn [obind] in E; try discriminate. specialize (IH s1 s' E). fold (calls_of ps) in *.
  destruct p as [c|r]; cbn [osqp_step] in E1.
  - destruct (bcall inf (om_b s) c) as [b|] eqn:Eb; cbn [bound obind] in E1; [|discriminate]. injection E1 as <-. cbn [om_b] in IH. exact IH.
  - destruct (osqp_optimize _ _ _ _ _ _) as [[s2 st]| |] eqn:E2; cbn [obind] in E1; try discriminate. injection E1 as <-. cbn [fst] in IH.
    rewrite (osqp_optimize_b _ _ _ _ _ _ _ _ E2) in IH. exact IH.
Qed.
Lemma qpoases_steps_b (Q : sqproblem R) inf ps : forall s s' : qmodel Q, qpoases_steps Q inf s ps = Ok s' -> bcalls inf (qm_b Q s) (calls_of ps) = Some (qm_b Q s').
Proof.
  induction ps as [|p ps IH]; intros s s' E; cbn [qpoases_steps calls_of map bcalls] in *; [injection E as <-; reflexivity|].
  destruct (qpoases_step Q inf s p) as [s1| |] eqn:E1; cbn [obind] in E; try discriminate. specialize (IH s1 s' E). fold (calls_of ps) in *.
  destruct p as [c|r]; cbn [qpoases_step] in E1.
  - destruct (bcall inf (qm_b Q s) c) as [b|] eqn:Eb; cbn [bound obind] in E1; [|discriminate]. injection E1 as <-. cbn [qm_b] in IH. exact IH.
  - destruct (qpoases_optimize _ _ _) as [[[s2 st]|]| |] eqn:E2; cbn [obind] in E1; try discriminate. injection E1 as <-. cbn [fst] in IH.
    rewrite (qpoases_optimize_b _ _ _ _ _ E2) in IH. exact IH.
Qed.
Lemma bpmpd_steps_b inf ps : forall s s' : bmodel R, bpmpd_steps inf s ps = Ok s' -> bcalls inf (bm_b s) (calls_of ps) = Some (bm_b s').
Proof.
  induction ps as [|p ps IH]; intros s s' E; cbn [bpmpd_steps calls_of map bcalls] in *; [injection E as <-; reflexivity|].
  destruct (bpmpd_step inf s p) as [s1| |] eqn:E1; cbn [obind] in E; try discriminate. specialize (IH s1 s' E). fold (calls_of ps) in *.
  destruct p as [c|r]; cbn [bpmpd_step] in E1.
  - destruct (bcall inf (bm_b s) c) as [b|] eqn:Eb; cbn [bound obind] in E1; [|discriminate]. injection E1 as <-. cbn [bm_b] in IH. exact IH.
  - destruct (bpmpd_optimize _ _ _) as [[s2 st]| |] eqn:E2; cbn [obind] in E1; try discriminate. injection E1 as <-. cbn [fst] in IH.
    rewrite (bpmpd_optimize_b _ _ _ _ _ E2) in IH. exact IH.
Qed.

(** ** from the solver's answer to the values read back *)
Lemma read_back inf cs q b fit value eps delta sol : sim b (vfacts inf cs) (cfacts cs) -> view inf cs q fit value ->
  length sol = length (live_v (vfacts inf cs)) -> answer (length (live_v (vfacts inf cs))) fit value eps delta sol ->
  (exists X, has_values inf cs (update b) sol X) /\ forall X, has_values inf cs (update b) sol X -> solves_problem inf eps delta cs q X.
Proof.
  intros H V L A. split.
  - destruct (pick_any (vfacts inf cs) sol L) as (X & E). exists X. apply (values_pick inf cs b sol X H L). symmetry. exact E.
  - intros X HX. apply (values_pick inf cs b sol X H L) in HX. rewrite HX in A. apply (view_answer inf cs q fit value eps delta X V), A.
Qed.
