(** * C40, C41, C43: what the backends hold and hand to their solvers *)
From Coq Require Import List ZArith QArith Bool Arith Lia Reals Lra Sorted.
From Verif Require Import Num NumFacts RSums Common ScoExprModel ScoExprProofs EigenModel EigenProofs EigenProps BackendModel BackendSpec BackendProofs.
Import ListNotations.
Local Open Scope R_scope.

(** ** C40 *)
(** After any history of calls, update() leaves exactly the variables that were not removed, in order of
    creation, each with the bounds last set for it and with consecutive indices; and likewise the
    constraints with their own expressions and types.  For all three backends and all number types. *)
Theorem C40_update :
  forall (T : Type) (NT : Num T) (inf : T) (cs : list (call T)), sane inf [] [] cs ->
  exists s, bcalls inf empty_backend cs = Some s /\
    let vf := vfacts inf cs in let cf := cfacts cs in let s' := update s in
    b_vars s' = live_v vf /\
    b_lbs s' = map (fun id => v_lo (nth id vf no_v)) (live_v vf) /\
    b_ubs s' = map (fun id => v_hi (nth id vf no_v)) (live_v vf) /\
    b_cnts s' = live_c cf /\
    b_exprs s' = map (fun id => c_expr (nth id cf no_c)) (live_c cf) /\
    b_ineq s' = map (fun id => c_ineq (nth id cf no_c)) (live_c cf) /\
    (forall p id, nth_error (live_v vf) p = Some id -> nth id (b_vreps s') no_rep = {| r_index := p; r_removed := false |}) /\
    (forall p id, nth_error (live_c cf) p = Some id -> nth id (b_creps s') no_rep = {| r_index := p; r_removed := false |}) /\
    b_obj s' = b_obj s.
Proof.
  intros T NT inf cs Hs. destruct (sim_history inf cs Hs) as (s & E & H). exists s. split; [exact E|]. intros vf cf s'.
  destruct (sim_update s vf cf H) as ([Hv Hl Hu Hc He Hi] & Ev & Ec). fold s' in Hv, Hl, Hu, Hc, He, Hi, Ev, Ec.
  rewrite Ev in Hl, Hu. rewrite Ec in He, Hi.
  repeat (split; [assumption|]).
  assert (K : forall reps ids gone p id, heap_ok reps ids gone -> nth_error ids p = Some id -> nth id gone false = false ->
    nth id reps no_rep = {| r_index := p; r_removed := false |}).
  { intros reps ids gone p id Hk Hp Hg. pose proof (ho_index _ _ _ Hk p id Hp) as I. pose proof (ho_flag _ _ _ Hk id) as F.
    rewrite Hg in F. unfold kept in F. destruct (nth id reps no_rep) as [i r]. cbn in I, F. subst. destruct r; [discriminate|reflexivity]. }
  split; [|split].
  - intros p id Hp. apply (K _ _ _ p id Hv); [rewrite Ev; exact Hp|]. rewrite nth_gone.
    apply nth_error_In in Hp. apply filter_In in Hp as [_ Hp]. destruct (v_gone _); [discriminate|reflexivity].
  - intros p id Hp. apply (K _ _ _ p id Hc); [rewrite Ec; exact Hp|]. rewrite nth_cgone.
    apply nth_error_In in Hp. apply filter_In in Hp as [_ Hp]. destruct (c_gone _); [discriminate|reflexivity].
  - unfold s', update. destruct (compact _ _ _ _ _ _) as [[[? ?] ?] ?]. destruct (compact _ _ _ _ _ _) as [[[? ?] ?] ?]. reflexivity.
Qed.
Print Assumptions C40_update.

Definition over {T} `{Num T} (vf : list (vfact T)) (vars : list nat) : Prop := Forall (fun id => In id (live_v vf)) vars.
Definition over_q {T} `{Num T} (vf : list (vfact T)) (q : quad T) : Prop :=
  over vf (a_vars (q_aff q)) /\ over vf (q_vars1 q) /\ over vf (q_vars2 q).
(** the solver's vector for an assignment [X] of values to all variables ever created *)
Definition pick (vf : list (vfact R)) (X : list R) : list R := map (fun id => nth id X 0) (live_v vf).

Lemma pick_at s vf cf (X : list R) id : sim s vf cf -> In id (live_v vf) -> nth (resolve_var (update s) id) (pick vf X) 0 = nth id X 0.
Proof.
  intros H Hin. apply In_nth_error in Hin as (p & Hp). rewrite (live_v_index s vf cf p id H Hp).
  unfold pick. destruct (nth_error_ok _ _ 0%nat _ Hp) as [E L].
  rewrite (nth_indep _ 0 ((fun id => nth id X 0) 0%nat)) by (rewrite map_length; exact L). rewrite (map_nth (fun id => nth id X 0)), E. reflexivity.
Qed.
Lemma resolve_value s vf cf (e : aff R) X : sim s vf cf -> over vf (a_vars e) -> aff_value (resolve (update s) e) (pick vf X) = aff_value e X.
Proof.
  intros H Ho. rewrite !aff_value_sum. cbn [resolve a_const a_coeffs a_vars]. f_equal. rewrite combine_map_r, rsum_map.
  apply rsum_ext. intros [c v] Hin. cbn [fst snd]. f_equal. apply (pick_at s vf cf); [exact H|].
  apply in_combine_r in Hin. unfold over in Ho. rewrite Forall_forall in Ho. auto.
Qed.
Lemma resolve_quad_value s vf cf (q : quad R) X : sim s vf cf -> over_q vf q -> quad_value (resolve_quad (update s) q) (pick vf X) = quad_value q X.
Proof.
  intros H (H1 & H2 & H3). rewrite !quad_value_sum. cbn [resolve_quad q_aff q_coeffs q_vars1 q_vars2].
  rewrite (resolve_value s vf cf) by assumption. f_equal. unfold over in H2, H3. rewrite Forall_forall in H2, H3.
  rewrite combine_map_l, !combine_map_r, !rsum_map.
  apply rsum_ext. intros [c [i j]] Hin. cbn [fst snd]. apply in_combine_r in Hin.
  rewrite !(pick_at s vf cf); auto; [apply H3; eapply in_combine_r; exact Hin|apply H2; eapply in_combine_l; exact Hin].
Qed.
Lemma resolve_range (s : backend R) vf cf vars : sim s vf cf -> over vf vars -> Forall (fun v => (v < length (live_v vf))%nat) (map (resolve_var (update s)) vars).
Proof.
  intros H Ho. apply Forall_map. eapply Forall_impl; [|exact Ho]. cbn. intros id Hin. apply In_nth_error in Hin as (p & Hp).
  rewrite (live_v_index s vf cf p id H Hp). apply nth_error_Some. congruence.
Qed.

(** Expressions over the remaining variables keep their value under the new numbering, and getVarValues
    returns the value of the variable it is asked for. *)
Theorem C40_meaning :
  forall (inf : R) (cs : list (call R)), sane inf [] [] cs ->
  exists s, bcalls inf empty_backend cs = Some s /\
    let vf := vfacts inf cs in let s' := update s in
    forall X,
      (forall e, over vf (a_vars e) -> aff_value (resolve s' e) (pick vf X) = aff_value e X) /\
      (forall q, over_q vf q -> quad_value (resolve_quad s' q) (pick vf X) = quad_value q X) /\
      (forall id, In id (live_v vf) -> get_value s' (pick vf X) id = Some (nth id X 0)).
Proof.
  intros inf cs Hs. destruct (sim_history inf cs Hs) as (s & E & H). exists s. split; [exact E|]. intros vf s' X.
  split; [|split].
  - intros e He. apply (resolve_value s vf (cfacts cs)); assumption.
  - intros q Hq. apply (resolve_quad_value s vf (cfacts cs)); assumption.
  - intros id Hin. unfold get_value. pose proof Hin as Hin2. apply In_nth_error in Hin as (p & Hp).
    unfold s'. rewrite (live_v_index s vf (cfacts cs) p id H Hp). unfold pick.
    rewrite nth_error_map, Hp. reflexivity.
Qed.
Print Assumptions C40_meaning.

(** A Var that was removed keeps its old index after update(): setting its bounds changes the bounds of
    another variable, and an expression that still mentions it reads another variable. *)
Theorem C40_stale_refuted :
  exists (cs : list (call Q)) (s s' : backend Q) (id other : nat),
    let run c := bcalls 1000%Q empty_backend (cs ++ c) in
    sane 1000%Q [] [] cs /\ run [] = Some s /\ run [SetBounds id 1%Q 2%Q] = Some s' /\
    v_gone (nth id (vfacts 1000%Q cs) no_v) = true /\ live_v (vfacts 1000%Q cs) = [other] /\ id <> other /\
    b_lbs s = [(-1000)%Q] /\ b_lbs s' = [1%Q] /\ b_ubs s' = [2%Q] /\
    aff_value (resolve s (aff_var id)) [5%Q] = aff_value (resolve s (aff_var other)) [5%Q].
Proof.
  exists [AddVar; AddVar; Update; RemoveVar 0; Update]. do 2 eexists. exists 0%nat, 1%nat. cbv zeta.
  split; [cbn; lia|]. split; [vm_compute; reflexivity|]. split; [vm_compute; reflexivity|].
  split; [reflexivity|]. split; [vm_compute; reflexivity|]. split; [lia|]. repeat split; vm_compute; reflexivity.
Qed.
Print Assumptions C40_stale_refuted.

Definition ex_calls : list (call Q) :=
  [AddVar; AddVar; AddVar; SetBounds 1 (-1)%Q 1%Q; SetBounds 2 0%Q 4%Q; AddCnt true {| a_const := (-3)%Q; a_coeffs := [1%Q; 2%Q]; a_vars := [1%nat; 2%nat] |};
   AddCnt false (aff_var 0%nat); Update; RemoveVar 0; RemoveCnt 1; AddCnt false {| a_const := 1%Q; a_coeffs := [1%Q; 1%Q]; a_vars := [2%nat; 1%nat] |}; SetBounds 2 1%Q 5%Q;
   SetQuad (quad_inc (var_square 2) (quad_of_aff (aff_var 1)))].
Example C40_ex : exists s, sane 1000%Q [] [] ex_calls /\ bcalls 1000%Q empty_backend ex_calls = Some s /\
  b_vars (update s) = [1; 2]%nat /\ b_lbs (update s) = [(-1)%Q; 1%Q] /\ b_ubs (update s) = [1%Q; 5%Q] /\ b_cnts (update s) = [0; 2]%nat /\
  b_ineq (update s) = [true; false] /\ map (fun e => a_vars (resolve (update s) e)) (b_exprs (update s)) = [[0; 1]; [1; 0]]%nat.
Proof. eexists. split; [cbn; repeat split; lia|]. split; [vm_compute; reflexivity|]. vm_compute. repeat split. Qed.

(** ** C41 *)
Definition above (inf l v : R) : Prop := l <= - inf \/ l <= v.
Definition below (inf u v : R) : Prop := inf <= u \/ v <= u.
Definition holds (c : cfact R) (X : list R) : Prop :=
  if c_ineq c then aff_value (c_expr c) X <= 0 else aff_value (c_expr c) X = 0.
Definition within (inf : R) (v : vfact R) (x : R) : Prop := above inf (v_lo v) x /\ below inf (v_hi v) x.
(** activity of a row of a matrix in compressed-column form *)
Definition activity (A : cscm R) (x : list R) (r : nat) : R := bigsum (m_cols A) (fun c => csc_get (m_csc A) r c * nth c x 0).
(** the constraints are well formed, mention remaining variables only, and have constants the solver does
    not take for infinity *)
Definition cnts_ok (inf : R) (vf : list (vfact R)) (cf : list (cfact R)) : Prop :=
  forall id, In id (live_c cf) -> let e := c_expr (nth id cf no_c) in wf_aff e /\ over vf (a_vars e) /\ - inf < a_const e < inf.

Lemma nth_map_in {A B} (f : A -> B) l i d da : (i < length l)%nat -> nth i (map f l) d = f (nth i l da).
Proof. intros H. rewrite (nth_indep _ d (f da)) by (rewrite map_length; exact H). apply map_nth. Qed.

Lemma bound_cols_aux m k (cols : smat R) c : (c < length cols)%nat ->
  nth c (map (fun ic => col_add (m + fst ic)%nat none_ (snd ic)) (combine (seq k (length cols)) cols)) [] = col_add (m + (k + c)) none_ (nth c cols []).
Proof.
  revert k c. induction cols as [|col cols IH]; intros k c H; cbn [length] in H; [lia|]. destruct c as [|c]; cbn [length seq combine map nth fst snd].
  - rewrite Nat.add_0_r. reflexivity.
  - rewrite IH by lia. rewrite <- plus_n_Sm. reflexivity.
Qed.
Lemma bound_cols_length m (cols : smat R) : length (bound_cols m cols) = length cols.
Proof. unfold bound_cols. rewrite map_length, combine_length, seq_length. lia. Qed.
Lemma bound_cols_wf m n (cols : smat R) : wfm m cols -> length cols = n -> wfm (m + n) (bound_cols m cols).
Proof.
  intros H L. unfold wfm. apply Forall_forall. intros col Hin. apply (In_nth _ _ []) in Hin as (c & Hc & <-). rewrite bound_cols_length in Hc.
  unfold bound_cols. rewrite bound_cols_aux by exact Hc. destruct (wfm_nth m cols c H) as [A B]. split; [apply col_add_sorted; exact A|].
  apply (col_add_bound (fun r => (r < m + n)%nat)); [lia|]. eapply Forall_impl; [|exact B]. cbn. lia.
Qed.
Lemma bound_cols_entry m (cols : smat R) r c : wfm m cols -> (c < length cols)%nat ->
  entry (bound_cols m cols) r c = entry cols r c + (if (m + c =? r)%nat then 1 else 0).
Proof.
  intros H Hc. unfold entry, bound_cols. rewrite bound_cols_aux by exact Hc. destruct (wfm_nth m cols c H) as [A B].
  rewrite !sv_get_sum by (try apply col_add_sorted; exact A). rewrite col_add_sum. reflexivity.
Qed.
Lemma entry_beyond n (m : smat R) r c : wfm n m -> (n <= r)%nat -> entry m r c = 0.
Proof.
  intros H Hr. unfold entry. destruct (wfm_nth n m c H) as [A B]. rewrite sv_get_sum by exact A. clear A. induction B as [|p l Hp Hl IH]; [reflexivity|].
  rewrite assoc_sum_cons, IH. destruct (Nat.eqb_spec (fst p) r); [lia|lra].
Qed.

(** what the conversion of the constraints gives, in terms of the history *)
Lemma converted s vf cf : sim s vf cf ->
  (forall id, In id (live_c cf) -> let e := c_expr (nth id cf no_c) in wf_aff e /\ over vf (a_vars e)) ->
  let n := length (live_v vf) in let m := length (live_c cf) in
  exists A b, affs_to_eigen (map (resolve (update s)) (b_exprs (update s))) n = Ok (Some (A, b)) /\
    length A = n /\ wfm m A /\ b = map (fun id => - a_const (c_expr (nth id cf no_c))) (live_c cf) /\
    forall i id X, nth_error (live_c cf) i = Some id ->
      bigsum n (fun c => entry A i c * nth c (pick vf X) 0) = nth i b 0 + aff_value (c_expr (nth id cf no_c)) X.
Proof.
  intros H Hc n m. destruct (sim_update s vf cf H) as ([_ _ _ _ He _] & _ & Ec). rewrite Ec in He. rewrite He, map_map.
  set (es := map _ (live_c cf)).
  assert (W : Forall wf_aff es).
  { unfold es. apply Forall_map, Forall_forall. intros id Hid. unfold wf_aff. cbn. rewrite map_length. apply (Hc id Hid). }
  assert (Rg : Forall (fun e => Forall (fun v => (v < n)%nat) (a_vars e)) es).
  { unfold es. apply Forall_map, Forall_forall. intros id Hid. cbn [resolve a_vars]. apply (resolve_range s vf cf); [exact H|]. apply (Hc id Hid). }
  destruct (affs_to_eigen_spec es n W) as [K _]. destruct (K Rg) as (A & b & E & LA & WA & Lb & V).
  exists A, b. split; [exact E|]. split; [exact LA|].
  assert (Eb : b = map (fun id => - a_const (c_expr (nth id cf no_c))) (live_c cf)).
  { unfold affs_to_eigen in E. destruct (forallb _ es); [|discriminate]. destruct (set_from_triplets _ _ _); try discriminate. cbn [obind] in E.
    injection E as _ <-. unfold es. rewrite map_map. apply map_ext. intros id. reflexivity. }
  split; [unfold es in WA; rewrite map_length in WA; exact WA|]. split; [exact Eb|].
  intros i id X Hi. rewrite <- (resolve_value s vf cf) by (try exact H; apply (Hc id); eapply nth_error_In; exact Hi).
  assert (Hn : nth_error es i = Some (resolve (update s) (c_expr (nth id cf no_c)))) by (unfold es; rewrite nth_error_map, Hi; reflexivity).
  rewrite <- (V i _ (pick vf X) Hn). lra.
Qed.

Lemma fmax_above inf l v : 0 < inf -> above inf (nfmax l (- inf)%num) v <-> above inf l v.
Proof. intros H. rewrite nfmax_R. rnum. unfold above, Rmax. destruct (Rle_dec l (- inf)); lra. Qed.
Lemma fmin_below inf u v : 0 < inf -> below inf (nfmin u inf) v <-> below inf u v.
Proof. intros H. rewrite nfmin_R. unfold below, Rmin. destruct (Rle_dec u inf); lra. Qed.

(** The rows handed to OSQP admit exactly the points that satisfy every constraint not removed and the
    bounds of every variable not removed; entries of at least OSQP_INFINITY stand for no bound. *)
Theorem C41_osqp :
  forall (inf : R) (cs : list (call R)), 0 < inf -> sane inf [] [] cs -> cnts_ok inf (vfacts inf cs) (cfacts cs) ->
  exists s A l u, bcalls inf empty_backend cs = Some s /\
    osqp_constraints inf (update s) = Ok (Some (A, l, u)) /\
    let vf := vfacts inf cs in let cf := cfacts cs in
    m_cols A = length (live_v vf) /\ m_rows A = (length (live_c cf) + length (live_v vf))%nat /\
    length l = m_rows A /\ length u = m_rows A /\
    forall X,
      let row := activity A (pick vf X) in
      (forall r, (r < m_rows A)%nat -> above inf (nth r l 0) (row r) /\ below inf (nth r u 0) (row r)) <->
      (forall id, In id (live_c cf) -> holds (nth id cf no_c) X) /\
      (forall id, In id (live_v vf) -> within inf (nth id vf no_v) (nth id X 0)).
Proof.
  intros inf cs Hinf Hs Hok. destruct (sim_history inf cs Hs) as (s & E & H). exists s.
  set (vf := vfacts inf cs) in *. set (cf := cfacts cs) in *.
  destruct (converted s vf cf H) as (A & b & EA & LA & WA & Eb & V).
  { intros id Hid. destruct (Hok id Hid) as (W & O & _). split; assumption. }
  destruct (sim_update s vf cf H) as ([_ Hl Hu _ _ Hi] & Ev & Ec). rewrite Ev in Hl, Hu. rewrite Ec in Hi.
  unfold osqp_constraints. rewrite Ev, Ec, EA, Hl, Hu, Hi. cbn [obind].
  do 3 eexists. split; [exact E|]. split; [reflexivity|]. cbv zeta. cbn [m_cols m_rows m_csc].
  set (n := length (live_v vf)) in *. set (m := length (live_c cf)) in *.
  assert (Lb : length b = m) by (rewrite Eb; apply map_length).
  split; [reflexivity|]. split; [reflexivity|].
  split; [rewrite app_length, !map_length, combine_length, map_length, Lb; fold m n; lia|].
  split; [rewrite app_length, !map_length, Lb; fold n; lia|].
  intros X. set (row := activity _ (pick vf X)).
  assert (Rc : forall i id, nth_error (live_c cf) i = Some id -> row i = nth i b 0 + aff_value (c_expr (nth id cf no_c)) X).
  { intros i id Hid. rewrite <- (V i id X Hid). unfold row, activity. cbn [m_cols m_csc]. apply bigsum_ext. intros c Hc. f_equal.
    rewrite (to_csc_get (m + n)) by (try apply bound_cols_wf; rewrite ?bound_cols_length; auto; lia).
    rewrite bound_cols_entry by (auto; lia). destruct (nth_error_ok _ _ 0%nat _ Hid) as [_ Q].
    destruct (Nat.eqb_spec (m + c) i); [unfold m in *; lia|lra]. }
  assert (Rv : forall p id, nth_error (live_v vf) p = Some id -> row (m + p)%nat = nth id X 0).
  { intros p id Hid. unfold row, activity. cbn [m_cols m_csc]. destruct (nth_error_ok _ _ 0%nat _ Hid) as [Q1 Q2]. fold n in Q2. rewrite (bigsum_single n _ p Q2).
    - rewrite (to_csc_get (m + n)) by (try apply bound_cols_wf; rewrite ?bound_cols_length; auto; lia).
      rewrite bound_cols_entry by (auto; lia). rewrite Nat.eqb_refl, (entry_beyond m) by (auto; lia).
      unfold pick. rewrite (nth_map_in _ _ p 0 0%nat) by exact Q2. rewrite Q1. lra.
    - intros c Hc Hne. rewrite (to_csc_get (m + n)) by (try apply bound_cols_wf; rewrite ?bound_cols_length; auto; lia).
      rewrite bound_cols_entry by (auto; lia). rewrite (entry_beyond m) by (auto; lia). destruct (Nat.eqb_spec (m + c) (m + p)); [lia|lra]. }
  assert (Lrow : length (map (fun tv : bool * R => cnt_low inf (fst tv) (snd tv)) (combine (map (fun id => c_ineq (nth id cf no_c)) (live_c cf)) b)) = m)
    by (rewrite map_length, combine_length, map_length, Lb; fold m; lia).
  assert (Cr : forall i id, nth_error (live_c cf) i = Some id ->
    ((above inf (nth i (map (fun tv : bool * R => cnt_low inf (fst tv) (snd tv)) (combine (map (fun id => c_ineq (nth id cf no_c)) (live_c cf)) b)) 0) (row i) /\
      below inf (nth i b 0) (row i)) <-> holds (nth id cf no_c) X)).
  { intros i id Hid. rewrite (Rc i id Hid). destruct (nth_error_ok _ _ 0%nat _ Hid) as [Q1 Q2]. fold m in Q2.
    assert (Eb' : nth i b 0 = - a_const (c_expr (nth id cf no_c))) by (rewrite Eb, (nth_map_in _ _ i 0 0%nat) by exact Q2; rewrite Q1; reflexivity).
    rewrite (nth_map_in _ _ i 0 (false, 0)) by (rewrite combine_length, map_length, Lb; fold m; lia).
    rewrite combine_nth by (rewrite map_length, Lb; reflexivity). cbn [fst snd].
    rewrite (nth_map_in _ _ i false 0%nat) by exact Q2. rewrite Q1.
    destruct (Hok id) as (_ & _ & B); [eapply nth_error_In; exact Hid|]. unfold holds, above, below, cnt_low. rnum.
    destruct (c_ineq (nth id cf no_c)); rewrite Eb'; lra. }
  split.
  - intros HR. split.
    + intros id Hin. apply In_nth_error in Hin as (i & Hid). apply (Cr i id Hid). destruct (nth_error_ok _ _ 0%nat _ Hid) as [_ Q]. fold m in Q.
      specialize (HR i ltac:(lia)). rewrite app_nth1 in HR by (rewrite Lrow; exact Q). rewrite app_nth1 in HR by (rewrite Lb; exact Q). exact HR.
    + intros id Hin. apply In_nth_error in Hin as (p & Hid). destruct (nth_error_ok _ _ 0%nat _ Hid) as [Q1 Q2]. fold n in Q2.
      specialize (HR (m + p)%nat ltac:(lia)). rewrite (Rv p id Hid) in HR.
      rewrite app_nth2 in HR by (rewrite Lrow; lia). rewrite app_nth2 in HR by (rewrite Lb; lia). rewrite Lrow, Lb in HR.
      replace (m + p - m)%nat with p in HR by lia. rewrite !map_map in HR.
      rewrite !(nth_map_in _ _ p 0 0%nat) in HR by exact Q2. rewrite Q1 in HR.
      destruct HR as [HR1 HR2]. apply (proj1 (fmax_above inf _ _ Hinf)) in HR1. apply (proj1 (fmin_below inf _ _ Hinf)) in HR2. split; assumption.
  - intros [HC HV] r Hr. destruct (Nat.lt_ge_cases r m) as [Q|Q].
    + destruct (nth_error (live_c cf) r) as [id|] eqn:Hid; [|apply nth_error_None in Hid; fold m in Hid; lia].
      rewrite app_nth1 by (rewrite Lrow; exact Q). rewrite app_nth1 by (rewrite Lb; exact Q). apply (Cr r id Hid). apply HC. eapply nth_error_In; exact Hid.
    + destruct (nth_error (live_v vf) (r - m)) as [id|] eqn:Hid; [|apply nth_error_None in Hid; fold n in Hid; lia].
      destruct (nth_error_ok _ _ 0%nat _ Hid) as [Q1 Q2]. fold n in Q2.
      rewrite app_nth2 by (rewrite Lrow; lia). rewrite app_nth2 by (rewrite Lb; lia). rewrite Lrow, Lb.
      replace r with (m + (r - m))%nat at 2 4 by lia. rewrite (Rv _ id Hid), !map_map.
      rewrite !(nth_map_in _ _ (r - m) 0 0%nat) by exact Q2. rewrite Q1.
      destruct (HV id) as [V1 V2]; [eapply nth_error_In; exact Hid|]. split; [apply (proj2 (fmax_above inf _ _ Hinf))|apply (proj2 (fmin_below inf _ _ Hinf))]; assumption.
Qed.
Print Assumptions C41_osqp.

(** the hypotheses are met and the arrays computed by the model for the history of [C40_ex] *)
Example C41_osqp_ex : exists s, bcalls 1000%Q empty_backend ex_calls = Some s /\
  osqp_constraints 1000%Q (update s) = Ok (Some ({| m_rows := 4; m_cols := 2;
     m_csc := {| c_rows := [0; 1; 2; 0; 1; 3]%nat; c_ptrs := [0; 3; 6]%nat; c_vals := [1; 1; 1; 2; 1; 1]%Q |} |},
     [(-1000)%Q; (-1)%Q; (-1)%Q; 1%Q], [3%Q; (-1)%Q; 1%Q; 5%Q])).
Proof. eexists. split; vm_compute; reflexivity. Qed.
Definition ex_callsR : list (call R) :=
  [AddVar; AddVar; AddCnt true {| a_const := -3; a_coeffs := [2]; a_vars := [1%nat] |}; SetBounds 1 0 5; RemoveVar 0; Update;
   SetQuad (quad_inc (var_square 1) (quad_of_aff (aff_var 1)))].
Example C41_hyps : sane 1000 [] [] ex_callsR /\ cnts_ok 1000 (vfacts 1000 ex_callsR) (cfacts ex_callsR) /\
  over_q (vfacts 1000 ex_callsR) (quad_inc (var_square 1) (quad_of_aff (aff_var 1))) /\ live_v (vfacts 1000 ex_callsR) = [1%nat].
Proof.
  split; [cbn; repeat split; lia|]. split.
  - intros id Hin. cbn in Hin. destruct Hin as [<-|[]]. cbn. split; [reflexivity|]. split; [|lra]. constructor; [left; reflexivity|constructor].
  - split; [|reflexivity]. split; [|split]; cbn; repeat constructor.
Qed.

(** qpOASES gets the constraints as rows and the bounds of the variables as they were set. *)
Theorem C41_qpoases :
  forall (inf : R) (cs : list (call R)), 0 < inf -> sane inf [] [] cs -> cnts_ok inf (vfacts inf cs) (cfacts cs) ->
  forall s d, bcalls inf empty_backend cs = Some s -> qpoases_data inf (update s) = Ok (Some d) ->
    let vf := vfacts inf cs in let cf := cfacts cs in
    m_cols (p_A d) = length (live_v vf) /\ m_rows (p_A d) = length (live_c cf) /\
    length (p_lbA d) = m_rows (p_A d) /\ length (p_ubA d) = m_rows (p_A d) /\
    p_lb d = map (fun id => v_lo (nth id vf no_v)) (live_v vf) /\ p_ub d = map (fun id => v_hi (nth id vf no_v)) (live_v vf) /\
    forall X,
      let row := activity (p_A d) (pick vf X) in
      (forall r, (r < m_rows (p_A d))%nat -> above inf (nth r (p_lbA d) 0) (row r) /\ below inf (nth r (p_ubA d) 0) (row r)) <->
      (forall id, In id (live_c cf) -> holds (nth id cf no_c) X).
Proof.
  intros inf cs Hinf Hs Hok s d E ED vf cf. destruct (sim_history inf cs Hs) as (s0 & E0 & H). rewrite E in E0. injection E0 as <-. fold vf cf in H, Hok.
  destruct (converted s vf cf H) as (A & b & EA & LA & WA & Eb & V).
  { intros id Hid. destruct (Hok id Hid) as (W & O & _). split; assumption. }
  destruct (sim_update s vf cf H) as ([_ Hl Hu _ _ Hi] & Ev & Ec). rewrite Ev in Hl, Hu. rewrite Ec in Hi.
  unfold qpoases_data in ED. rewrite Ev, Ec, EA, Hl, Hu, Hi in ED. destruct (quad_to_eigen _ _ _ _) as [[[P g]|]| |]; cbn [obind] in ED; try discriminate.
  injection ED as <-. cbn [p_A p_lbA p_ubA p_lb p_ub m_rows m_cols].
  set (n := length (live_v vf)) in *. set (m := length (live_c cf)) in *.
  assert (Lb : length b = m) by (rewrite Eb; apply map_length).
  split; [reflexivity|]. split; [reflexivity|].
  split; [rewrite !map_length, combine_length, map_length, Lb; fold m; lia|]. split; [exact Lb|]. split; [reflexivity|]. split; [reflexivity|].
  intros X. set (row := activity _ (pick vf X)).
  assert (Rc : forall i id, nth_error (live_c cf) i = Some id -> row i = nth i b 0 + aff_value (c_expr (nth id cf no_c)) X).
  { intros i id Hid. rewrite <- (V i id X Hid). unfold row, activity. cbn [m_cols m_csc]. apply bigsum_ext. intros c Hc. f_equal. apply (to_csc_get m); auto; lia. }
  assert (Cr : forall i id, nth_error (live_c cf) i = Some id ->
    ((above inf (nth i (map (fun tv : bool * R => cnt_low inf (fst tv) (snd tv)) (combine (map (fun id => c_ineq (nth id cf no_c)) (live_c cf)) b)) 0) (row i) /\
      below inf (nth i b 0) (row i)) <-> holds (nth id cf no_c) X)).
  { intros i id Hid. rewrite (Rc i id Hid). destruct (nth_error_ok _ _ 0%nat _ Hid) as [Q1 Q2]. fold m in Q2.
    assert (Eb' : nth i b 0 = - a_const (c_expr (nth id cf no_c))) by (rewrite Eb, (nth_map_in _ _ i 0 0%nat) by exact Q2; rewrite Q1; reflexivity).
    rewrite (nth_map_in _ _ i 0 (false, 0)) by (rewrite combine_length, map_length, Lb; fold m; lia).
    rewrite combine_nth by (rewrite map_length, Lb; reflexivity). cbn [fst snd].
    rewrite (nth_map_in _ _ i false 0%nat) by exact Q2. rewrite Q1.
    destruct (Hok id) as (_ & _ & B); [eapply nth_error_In; exact Hid|]. unfold holds, above, below, cnt_low. rnum.
    destruct (c_ineq (nth id cf no_c)); rewrite Eb'; lra. }
  split.
  - intros HR id Hin. apply In_nth_error in Hin as (i & Hid). apply (Cr i id Hid). apply HR. apply nth_error_Some. congruence.
  - intros HC r Hr. destruct (nth_error (live_c cf) r) as [id|] eqn:Hid; [|apply nth_error_None in Hid; fold m in Hid; lia].
    apply (Cr r id Hid). apply HC. eapply nth_error_In; exact Hid.
Qed.
Print Assumptions C41_qpoases.
Example C41_qpoases_ex : exists s d, bcalls 1000%Q empty_backend ex_calls = Some s /\ qpoases_data 1000%Q (update s) = Ok (Some d) /\
  p_lbA d = [(-1000)%Q; (-1)%Q] /\ p_ubA d = [3%Q; (-1)%Q] /\ p_lb d = [(-1)%Q; 1%Q] /\ p_ub d = [1%Q; 5%Q].
Proof. do 2 eexists. split; [vm_compute; reflexivity|]. split; [vm_compute; reflexivity|]. repeat split. Qed.

(** ** C43 *)
(** the objective a solver minimises: 1/2 x'Px + q'x, with the entry of P at (r, c) read by [at_] *)
Definition quadratic (n : nat) (at_ : nat -> nat -> R) (q x : list R) : R :=
  / 2 * bigsum n (fun r => bigsum n (fun c => nth r x 0 * at_ r c * nth c x 0)) + bigsum n (fun i => nth i q 0 * nth i x 0).
(** OSQP stores the upper triangle *)
Definition mirrored (a : nat -> nat -> R) (r c : nat) : R := if (r <=? c)%nat then a r c else a c r.

Lemma resolve_quad_wf s (q : quad R) : wf_quad q -> wf_quad (resolve_quad s q).
Proof. intros (H1 & H2 & H3). unfold wf_quad, wf_aff in *. cbn. rewrite !map_length. auto. Qed.
Lemma quad_data (s : backend R) vf cf q fd : sim s vf cf -> wf_quad q -> over_q vf q ->
  exists P v, quad_to_eigen (resolve_quad (update s) q) (length (live_v vf)) true fd = Ok (Some (P, v)).
Proof.
  intros H W (O1 & O2 & O3). apply (proj1 (C34_quadratic_objective _ _ true fd (resolve_quad_wf _ q W)));
    cbn [resolve_quad q_aff resolve a_vars q_vars1 q_vars2]; apply (resolve_range s vf cf); assumption.
Qed.

(** The objective handed to OSQP and qpOASES is the stored one, less its constant. *)
Theorem C43_arrays :
  forall (inf : R) (cs : list (call R)), sane inf [] [] cs ->
  forall s, bcalls inf empty_backend cs = Some s -> wf_quad (b_obj s) -> let vf := vfacts inf cs in over_q vf (b_obj s) ->
  (exists P q, osqp_objective (update s) = Ok (Some (P, q)) /\ m_cols P = length (live_v vf) /\ m_rows P = length (live_v vf) /\
     forall X, quadratic (m_cols P) (mirrored (csc_get (m_csc P))) q (pick vf X) = quad_value (b_obj s) X - a_const (q_aff (b_obj s))) /\
  (cnts_ok inf vf (cfacts cs) -> exists d, qpoases_data inf (update s) = Ok (Some d) /\
     forall X, quadratic (length (live_v vf)) (csc_get (m_csc (p_H d))) (p_g d) (pick vf X) = quad_value (b_obj s) X - a_const (q_aff (b_obj s))).
Proof.
  intros inf cs Hs s E W vf O. destruct (sim_history inf cs Hs) as (s0 & E0 & H). rewrite E in E0. injection E0 as <-. fold vf in H.
  assert (Eo : b_obj (update s) = b_obj s).
  { unfold update. destruct (compact _ _ _ _ _ _) as [[[? ?] ?] ?]. destruct (compact _ _ _ _ _ _) as [[[? ?] ?] ?]. reflexivity. }
  destruct (sim_update s vf _ H) as (_ & Ev & Ec).
  assert (K : forall X, quad_value (resolve_quad (update s) (b_obj s)) (pick vf X) = quad_value (b_obj s) X) by (intros X; apply (resolve_quad_value s vf (cfacts cs)); assumption).
  split.
  - destruct (quad_data s vf (cfacts cs) (b_obj s) false H W O) as (P & v & EP). unfold osqp_objective. rewrite Eo, Ev, EP. cbn [obind].
    do 2 eexists. split; [reflexivity|]. cbn [m_cols m_rows m_csc]. split; [reflexivity|]. split; [reflexivity|]. intros X.
    destruct (C34_osqp_arrays _ _ _ P v (resolve_quad_wf _ _ W) EP) as (_ & _ & V). specialize (V (pick vf X)). rewrite K in V.
    cbn [resolve_quad q_aff resolve a_const] in V. rewrite <- V. reflexivity.
  - intros Hok. destruct (quad_data s vf (cfacts cs) (b_obj s) true H W O) as (P & v & EP).
    destruct (converted s vf _ H) as (A & b & EA & _). { intros id Hid. destruct (Hok id Hid) as (? & ? & _). split; assumption. }
    unfold qpoases_data. rewrite Eo, Ev, EP, EA. cbn [obind].
    eexists. split; [reflexivity|]. cbn [p_H p_g m_csc]. intros X.
    destruct (quad_to_eigen_spec _ _ _ _ P v (resolve_quad_wf _ _ W) EP) as (LP & WP & _ & _ & V). specialize (V (pick vf X)). rewrite K in V.
    cbn [resolve_quad q_aff resolve a_const] in V. rewrite <- V. unfold quadratic, qform. f_equal. f_equal. apply bigsum_ext. intros r Hr. apply bigsum_ext. intros c Hc.
    rewrite (to_csc_get (length (live_v vf))) by (auto; lia). reflexivity.
Qed.
Print Assumptions C43_arrays.

(** Which expression is stored: a quadratic one replaces everything; an affine one replaces everything only
    if no quadratic terms are stored. *)
Theorem C43_replace_partial :
  forall (T : Type) (NT : Num T) (inf : T) (cs : list (call T)) s, bcalls inf empty_backend cs = Some s ->
  (forall q, exists s', bcalls inf empty_backend (cs ++ [SetQuad q]) = Some s' /\ b_obj s' = q) /\
  (Forall (fun c => match c with SetQuad q => q_coeffs q = [] /\ q_vars1 q = [] /\ q_vars2 q = [] | _ => True end) cs ->
   forall e, exists s', bcalls inf empty_backend (cs ++ [SetAff e]) = Some s' /\ b_obj s' = quad_of_aff e).
Proof.
  intros T NT inf cs.
  assert (App : forall cs s0 s c, bcalls inf s0 cs = Some s -> bcalls inf s0 (cs ++ [c]) = bcall inf s c).
  { intros l. induction l as [|c0 l IH]; intros s0 s c E; cbn [bcalls app] in *; [injection E as <-; destruct (bcall inf s0 c); reflexivity|].
    destruct (bcall inf s0 c0); [|discriminate]. apply IH. exact E. }
  intros s E. split.
  - intros q. rewrite (App cs empty_backend s _ E). cbn [bcall]. eexists. split; reflexivity.
  - intros F e. rewrite (App cs empty_backend s _ E). cbn [bcall]. eexists. split; [reflexivity|]. cbn.
    assert (K : forall cs s0 s, q_coeffs (b_obj s0) = [] -> q_vars1 (b_obj s0) = [] -> q_vars2 (b_obj s0) = [] -> bcalls inf s0 cs = Some s ->
      Forall (fun c => match c with SetQuad q => q_coeffs q = [] /\ q_vars1 q = [] /\ q_vars2 q = [] | _ => True end) cs ->
      q_coeffs (b_obj s) = [] /\ q_vars1 (b_obj s) = [] /\ q_vars2 (b_obj s) = []).
    { clear. intros cs. induction cs as [|c cs IH]; intros s0 s H1 H2 H3 E F; cbn [bcalls] in E; [injection E as <-; auto|].
      inversion F as [|? ? Fc Fs]; subst. destruct (bcall inf s0 c) as [s1|] eqn:Ec; [|discriminate].
      apply (IH s1 s); try assumption; destruct c; cbn [bcall] in Ec; try (injection Ec as <-; cbn; tauto);
        try (unfold set_bounds in Ec; destruct (_ <? _)%nat; [|discriminate]; injection Ec as <-; cbn; assumption);
        injection Ec as <-; unfold update; destruct (compact _ _ _ _ _ _) as [[[? ?] ?] ?]; destruct (compact _ _ _ _ _ _) as [[[? ?] ?] ?]; cbn; assumption. }
    destruct (K cs empty_backend s eq_refl eq_refl eq_refl E F) as (A & B & C). unfold with_aff, quad_of_aff. rewrite A, B, C. reflexivity.
Qed.
Print Assumptions C43_replace_partial.

(** Missing above: an affine objective set after a quadratic one leaves the quadratic terms in place, so
    the solver minimises something else. *)
Theorem C43_affine_refuted :
  exists (cs : list (call R)) (s : backend R) (e : aff R) P q, bcalls 1000 empty_backend (cs ++ [SetAff e]) = Some s /\
    sane 1000 [] [] (cs ++ [SetAff e]) /\ wf_aff e /\ over (vfacts 1000 (cs ++ [SetAff e])) (a_vars e) /\
    osqp_objective (update s) = Ok (Some (P, q)) /\
    exists X, quadratic (m_cols P) (mirrored (csc_get (m_csc P))) q (pick (vfacts 1000 (cs ++ [SetAff e])) X) <> aff_value e X - a_const e.
Proof.
  set (cs := [AddVar; SetQuad (var_square 0)] : list (call R)). set (e := aff_var 0 : aff R).
  assert (Hs : sane 1000 [] [] (cs ++ [SetAff e])) by (cbn; tauto).
  destruct (bcalls 1000 empty_backend (cs ++ [SetAff e])) as [s|] eqn:E; [|exfalso; cbn in E; discriminate].
  assert (Eo : b_obj s = with_aff (var_square 0) e) by (cbn in E; injection E as <-; reflexivity).
  assert (W : wf_quad (b_obj s)) by (rewrite Eo; repeat split).
  assert (O : over_q (vfacts 1000 (cs ++ [SetAff e])) (b_obj s)) by (rewrite Eo; split; [|split]; cbn; repeat constructor).
  destruct (C43_arrays 1000 _ Hs s E W O) as ((P & q & EP & _ & _ & V) & _).
  exists cs, s, e, P, q. split; [exact E|]. split; [exact Hs|]. split; [reflexivity|]. split; [cbn; repeat constructor|]. split; [exact EP|].
  exists [1]. rewrite V, Eo, quad_value_sum, !aff_value_sum. cbn. rewrite !rsum_cons, !rsum_nil. cbn. lra.
Qed.
Print Assumptions C43_affine_refuted.
