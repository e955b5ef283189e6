(** * C126, C127: the Gurobi backend *)
From Coq Require Import List ZArith QArith Bool Arith Lia Reals Lra Sorted.
From Verif Require Import Num NumFacts RSums Common ScoExprModel ScoExprProofs EigenModel EigenProofs BackendModel BackendSpec BackendProofs GurobiModel GurobiSpec GurobiProofs.
Import ListNotations.
Local Open Scope R_scope.

(** ** C126 *)
Definition flushes (c : gcall R) : Prop := match c with GUpdate | GOptimize _ => True | _ => False end.
(** A caller who obeys the rules never makes the code abort, fail an assertion or step out of an array.  Whenever Gurobi has
    processed its queue, it holds a column for every variable not removed, in order of creation and with the bounds last set, a
    row for every constraint not removed, the quadratic constraints and the objective last set; each says about the columns what
    the expression says about the variables (with 0 for removed ones), and getVarValues finds every variable. *)
Theorem C126_program :
  forall (cs : list (gcall R)) (c : gcall R), obeys no_hist (cs ++ [c]) -> flushes c ->
  exists s, grun empty_gmodel (cs ++ [c]) = GOk s /\
    let h := history (cs ++ [c]) in let g := gm_grb s in let live := live_v (h_v h) in
    gm_vars s = live /\ gm_cnts s = live_c (h_c h) /\ g_delv g = [] /\ g_delc g = [] /\
    g_ncols g = length live /\ map gc_lo (g_cols g) = map (fun id => v_lo (nth id (h_v h) no_v)) live /\
    map gc_hi (g_cols g) = map (fun id => v_hi (nth id (h_v h) no_v)) live /\
    forall X, let x := remaining (h_v h) X in let Y := without (h_v h) X in
      objective_at g x = quad_value (h_obj h) Y /\
      Forall2 (fun r id => let f := nth id (h_c h) no_c in
                 row_holds r x <-> if c_ineq f then aff_value (c_expr f) Y <= 0 else aff_value (c_expr f) Y = 0) (g_rows g) (live_c (h_c h)) /\
      Forall2 (fun r q => qrow_holds r x <-> quad_value q Y <= 0) (g_qrows g) (h_q h) /\
      (c = GOptimize x -> forall vars, Forall (fun id => In id live) vars -> g_get_values s vars = GOk (map (fun id => nth id X 0) vars)).
Proof.
  intros cs c O Fl. destruct (sim_gurobi _ O) as (s & E & Sm). exists s. split; [exact E|]. intros h g live.
  pose proof (wf_run _ _ O wf_none) as (W1 & W2 & W3). fold (history (cs ++ [c])) in W1, W2, W3. fold h in W1, W2, W3, Sm.
  pose proof Sm as [Hv Hc Dv Dc Lv Lc Kv Kc Bo Bq Be G]. pose proof G as [G1 G2 G3 G4 G5 G6 G7 G8 G9 G10 G11]. fold g in G, G1, G2, G3, G4, G5, G6, G7, G8, G9, G10, G11.
  assert (Hd : h_deadv h = gone_v (h_v h) /\ h_deadc h = gone_c (h_c h) /\ h_kv h = length (h_v h) /\ h_kc h = length (h_c h)).
  { unfold h, history. rewrite fold_left_app. cbn [fold_left]. destruct c; try destruct Fl; cbn; auto. }
  destruct Hd as (D1 & D2 & D3 & D4).
  assert (Ev : gm_vars s = live).
  { apply sorted_same; [exact (ho_sorted _ _ _ Hv)|apply sorted_filter, sorted_seq|]. intros id.
    destruct (Nat.lt_ge_cases id (length (h_v h))) as [L|L].
    - rewrite (Dv id L), D1. symmetry. apply live_in. exact L.
    - split; intros Hin; exfalso; [apply (ids_range _ _ _ Hv) in Hin; lia|]. unfold live, live_v in Hin. apply filter_In in Hin as [Hin _]. apply in_seq in Hin. lia. }
  assert (Ec : gm_cnts s = live_c (h_c h)).
  { apply sorted_same; [exact (ho_sorted _ _ _ Hc)|apply sorted_filter, sorted_seq|]. intros id.
    destruct (Nat.lt_ge_cases id (length (h_c h))) as [L|L].
    - rewrite (Dc id L), D2. symmetry. apply live_c_in. exact L.
    - split; intros Hin; exfalso; [apply (cids_range _ _ _ Hc) in Hin; lia|]. unfold live_c in Hin. apply filter_In in Hin as [Hin _]. apply in_seq in Hin. lia. }
  assert (Ed : g_delv g = [] /\ g_delc g = []).
  { unfold g. clear - E Fl. assert (K : exists s0, grun1 s0 c = GOk s).
    { revert E. generalize (empty_gmodel (T := R)). induction cs as [|a cs IH]; intros s0 E; cbn [app grun] in E.
      - destruct (grun1 s0 c) eqn:E1; cbn [gbind] in E; try discriminate. inversion E; subst. eauto.
      - destruct (grun1 s0 a) eqn:E1; cbn [gbind] in E; try discriminate. eauto. }
    destruct K as (s0 & K). destruct c; try destruct Fl; cbn [grun1] in K; inversion K; subst; [|split; reflexivity].
    unfold g_update. destruct (compact _ _ _ _ _ _) as [[[? ?] ?] ?]. destruct (compact _ _ _ _ _ _) as [[[? ?] ?] ?]. split; reflexivity. }
  rewrite Ev in G1, G2, G3, G6, G7, G8. rewrite Ec in G4, G5, G6.
  assert (En : g_ncols g = length live).
  { destruct G2 as [L2 Q]. destruct (Nat.lt_ge_cases (g_ncols g) (length live)) as [C|C]; [|lia]. exfalso.
    destruct (nth_error live (g_ncols g)) as [id|] eqn:Ei; [|apply nth_error_None in Ei; lia].
    pose proof (proj1 (Q _ _ Ei)) as Q2. rewrite D3 in Q2. assert (L : (id < length (h_v h))%nat) by (apply (ids_range _ _ _ Hv); rewrite Ev; eapply nth_error_In; exact Ei).
    specialize (Q2 L). lia. }
  split; [exact Ev|]. split; [exact Ec|]. split; [apply Ed|]. split; [apply Ed|]. split; [exact En|].
  split; [rewrite G1, map_map; reflexivity|]. split; [rewrite G1, map_map; reflexivity|].
  intros X x Y. split; [|split; [|split]].
  - unfold objective_at. rewrite rsum_fold, G8, G9. unfold x, live. rewrite quad_terms by (apply pairs2_range; exact Bo). fold Y.
    rewrite quad_pairs by exact W3. rewrite aff_pairs by (apply W3).
    assert (K : rsum (fun p : gcol R * R => gc_obj (fst p) * snd p) (combine (g_cols g) (remaining (h_v h) X)) =
                rsum (fun t => snd t * nth (fst t) Y 0) (pairs (q_aff (h_obj h)))).
    { unfold Y. rewrite <- (lin_coeffs (h_v h) X (pairs (q_aff (h_obj h))) (fun p => gc_obj (nth p (g_cols g) no_col))).
      - unfold bigsum. fold live. transitivity (rsum (fun a : gcol R * R => gc_obj (fst a) * snd a) (map (fun p => (nth p (g_cols g) no_col, nth p (remaining (h_v h) X) 0)) (seq 0 (length live)))); [|rewrite rsum_map; reflexivity].
        f_equal. apply (nth_ext _ _ (no_col, 0) (nth (length live) (g_cols g) no_col, nth (length live) (remaining (h_v h) X) 0)).
        + rewrite combine_length, map_length, seq_length, G1. unfold remaining. rewrite !map_length. fold live. apply Nat.min_id.
        + intros p Hp. rewrite combine_length, G1 in Hp. unfold remaining in Hp. rewrite !map_length in Hp. fold live in Hp. rewrite Nat.min_id in Hp.
          rewrite combine_nth by (rewrite G1; unfold remaining; rewrite !map_length; reflexivity).
          set (F := fun p => (nth p (g_cols g) no_col, nth p (remaining (h_v h) X) 0)). change (nth (length live) (g_cols g) no_col, nth (length live) (remaining (h_v h) X) 0) with (F (length live)).
          rewrite (map_nth F), seq_nth by (fold live; lia). reflexivity.
      - apply pairs_range. exact (proj1 Bo).
      - intros p id Ei. fold live in Ei. rewrite G1. change (@no_col R _) with (@no_col R R_Num). erewrite nth_error_nth by (apply map_nth_error; exact Ei). reflexivity. }
    rewrite K. ring.
  - rewrite Forall_forall in W1, Be. clear - G6 W1 Be Hc Ec. rewrite <- Ec in *.
    pose proof (cids_range _ _ _ Hc) as Rc. revert G6 Rc. generalize (g_rows g). generalize (gm_cnts s).
    induction l as [|id l IH]; intros rows F Rc; inversion F as [|r y l1 l2 Q1 Q2]; subst; constructor; [|apply IH; [exact Q2|intros; apply Rc; right; assumption]].
    set (f := nth id (h_c h) no_c) in *. assert (Hin : In f (h_c h)) by (apply nth_In, Rc; left; reflexivity).
    destruct Q1 as (A1 & A2 & A3 & A4). cbn zeta. unfold row_holds. rewrite A1, A2.
    assert (K : lin_at (gr_terms r) x = aff_value (c_expr f) Y - a_const (c_expr f)).
    { rewrite aff_pairs by (apply W1; exact Hin). unfold lin_at. rewrite rsum_fold.
      rewrite <- (bigsum_assoc (length live) (gr_terms r) (fun i => nth i x 0)) by exact A3. unfold x, Y.
      rewrite <- (lin_coeffs (h_v h) X (pairs (c_expr f)) (fun p => assoc_sum p (gr_terms r))); [fold live; ring| |exact A4].
      apply pairs_range. apply Be. exact Hin. }
    rewrite K. destruct (c_ineq f); split; intros; lra.
  - rewrite Forall_forall in W2, Bq. eapply Forall2_mono_in; [|exact G7]. intros r q Hin (Q1 & Q2 & Q3). unfold qrow_holds. rewrite Q1, Q2, Q3.
    unfold x, live. rewrite lin_terms by (apply pairs_range, (Bq q Hin)). rewrite quad_terms by (apply pairs2_range, (Bq q Hin)). fold Y.
    rewrite quad_pairs by (apply W2; exact Hin). rewrite aff_pairs by (apply (W2 q Hin)). split; intros; lra.
  - intros Hx vars F. unfold g_get_values, grb_getx. fold g.
    assert (U : Forall (usable h) vars).
    { eapply Forall_impl; [|exact F]. intros id Hin. assert (L : (id < length (h_v h))%nat) by (apply (ids_range _ _ _ Hv); rewrite Ev; exact Hin).
      split; [rewrite D3; exact L|]. rewrite D1. apply live_in; assumption. }
    destruct (use_vars s h vars Sm U) as (_ & U2 & U3 & _). fold g in U3. rewrite U3. rewrite U2, Ev.
    assert (Ex : g_x g = x).
    { unfold g. clear - E Hx. rewrite Hx in E. clear Hx. revert E. generalize x. intros x0. generalize (empty_gmodel (T := R)). induction cs as [|a cs IH]; intros s0 E; cbn [app grun] in E.
      - cbn in E. inversion E; subst. reflexivity.
      - destruct (grun1 s0 a) eqn:E1; cbn [gbind] in E; try discriminate. eauto. }
    rewrite Ex. replace (forallb _ _) with true.
    2: { symmetry. apply forallb_forall. intros i Hi. apply in_map_iff in Hi as (id & <- & Hin). rewrite Forall_forall in F. apply Nat.ltb_lt.
         unfold x, remaining. rewrite map_length. apply pos_lt. apply F. exact Hin. }
    cbn [andb ensure]. f_equal. rewrite map_map. apply map_ext_in. intros id Hin. rewrite Forall_forall in F. exact (remaining_pos (h_v h) X id (F id Hin)).
Qed.
Print Assumptions C126_program.

(** A history that obeys the rules and exercises all calls: five variables, one removed before and one after use, a constraint
    removed, repeated terms, a quadratic constraint. *)
Definition demo : list (gcall R) :=
  [GAddVar (-1) 1; GAddVar (-2) 2; GAddVar (-3) 3; GUpdate;
   GAddCnt true {| a_const := -4; a_coeffs := [1; 2; 3]; a_vars := [2; 1; 2]%nat |};
   GAddCnt false {| a_const := 5; a_coeffs := [1]; a_vars := [0]%nat |};
   GAddQuadCnt {| q_aff := {| a_const := -1; a_coeffs := [1]; a_vars := [0]%nat |}; q_coeffs := [1; 7]; q_vars1 := [2; 0]%nat; q_vars2 := [2; 1]%nat |};
   GUpdate; GRemoveCnts [1%nat]; GRemoveVars [0%nat]; GAddVar (-5) 5; GSetBounds [2%nat; 1%nat] [0; 0] [6; 7]; GUpdate;
   GSetQuad {| q_aff := {| a_const := 1; a_coeffs := [2; 3]; a_vars := [3; 3]%nat |}; q_coeffs := [4]; q_vars1 := [1]%nat; q_vars2 := [3]%nat |}].
Example demo_obeys : obeys no_hist (demo ++ [GOptimize [1; 2; 3]]).
Proof.
  cbn. unfold usable_q, usable, usable_c, wf_quad, wf_aff. cbn.
  repeat match goal with |- _ /\ _ => split | |- Forall _ _ => constructor | |- True => exact I | |- _ = _ => reflexivity end;
    try lia; intros Q; repeat destruct Q as [Q|Q]; discriminate || contradiction.
Qed.
Example C126_example : exists s, grun empty_gmodel (demo ++ [GOptimize [1; 2; 3]]) = GOk s /\
  gm_vars s = [1; 2; 3]%nat /\ map gc_lo (g_cols (gm_grb s)) = [0; 0; -5] /\ map gc_hi (g_cols (gm_grb s)) = [7; 6; 5] /\
  gm_cnts s = [0%nat] /\ length (g_rows (gm_grb s)) = 1%nat /\
  objective_at (gm_grb s) [1; 2; 3] = 1 + 2 * 3 + 3 * 3 + 4 * 1 * 3 /\
  g_get_values s [3%nat; 1%nat] = GOk [3; 1].
Proof.
  destruct (C126_program demo (GOptimize [1; 2; 3]) demo_obeys I) as (s & E & K). cbv zeta in K. exists s. split; [exact E|].
  set (h := history _) in K.
  assert (Hv : h_v h = [{| v_gone := true; v_lo := -1; v_hi := 1 |}; {| v_gone := false; v_lo := 0; v_hi := 7 |};
                        {| v_gone := false; v_lo := 0; v_hi := 6 |}; {| v_gone := false; v_lo := -5; v_hi := 5 |}]) by reflexivity.
  assert (Hc : live_c (h_c h) = [0%nat]) by reflexivity.
  assert (Ho : h_obj h = {| q_aff := {| a_const := 1; a_coeffs := [2; 3]; a_vars := [3; 3]%nat |}; q_coeffs := [4]; q_vars1 := [1]%nat; q_vars2 := [3]%nat |}) by reflexivity.
  rewrite Hv, Hc, Ho in K. destruct K as (K1 & K2 & _ & _ & _ & K3 & K4 & K5). specialize (K5 [0; 1; 2; 3]). cbv zeta in K5.
  destruct K5 as (K5 & K6 & _ & K7).
  change (remaining _ _) with [1; 2; 3] in *.
  split; [rewrite K1; reflexivity|]. split; [rewrite K3; reflexivity|]. split; [rewrite K4; reflexivity|]. split; [exact K2|].
  split; [apply Forall2_len in K6; exact K6|]. split.
  - rewrite K5. unfold quad_value, aff_value, without, var_value. cbn. rnum. ring.
  - rewrite K7; [reflexivity|reflexivity|]. repeat constructor; cbn; tauto.
Qed.

(** Without the rules: a variable cannot be used before update() has been called, although addVar has returned it; a constraint
    over it, its removal or its bounds abort the program, and setObjective fails its assertion even when it does not mention it.
    (The other backends take all of these, see C40.) *)
Theorem C126_early_refuted :
  exists (v : nat) (s : gmodel Q), grun empty_gmodel [GAddVar 0%Q 1%Q] = GOk s /\ gm_vars s = [v] /\
    g_add_cnt s true (aff_var v) = GAbort /\ g_remove_vars s [v] = GAbort /\ g_set_bounds s [v] [0%Q] [1%Q] = GAbort /\
    g_set_aff s (aff_const 0%Q) = GAssert.
Proof. exists 0%nat. eexists. split; [vm_compute; reflexivity|]. vm_compute. auto 8. Qed.
Print Assumptions C126_early_refuted.
(** The quadratic constraint cannot be removed: the Cnt returned for it is null, and removeCnts follows the pointer. *)
Theorem C126_quad_refuted :
  exists (q : quad Q) (s s' : gmodel Q) (c : option nat), grun empty_gmodel [GAddVar 0%Q 1%Q; GUpdate] = GOk s /\
    g_add_quad_cnt s q = GOk (s', c) /\ length (g_qrows (gm_grb s')) = 1%nat /\ gm_cnts s' = [] /\ g_remove_cnts s' [c] = GUndef.
Proof. exists (var_square 0). do 3 eexists. split; [vm_compute; reflexivity|]. split; [vm_compute; reflexivity|]. vm_compute. auto. Qed.
Print Assumptions C126_quad_refuted.
(** optimize() after a removal without update() in between: Gurobi drops the column, the indices stay.  getVarValues then answers
    with the value of another variable, and aborts for the last one. *)
Theorem C126_stale_refuted :
  exists (cs : list (gcall Q)) (s : gmodel Q) (b c : nat) (x : list Q), grun empty_gmodel cs = GOk s /\
    map gc_lo (g_cols (gm_grb s)) = [1; 2]%Q /\ live_v (h_v (history cs)) = [b; c] /\
    v_lo (nth b (h_v (history cs)) no_v) = 1%Q /\ v_lo (nth c (h_v (history cs)) no_v) = 2%Q /\ g_x (gm_grb s) = x /\
    nth 0 x 0%Q <> nth 1 x 0%Q /\ g_get_values s [b] = GOk [nth 1 x 0%Q] /\ g_get_values s [c] = GAbort /\
    g_get_values (g_update s) [b] = GOk [nth 0 x 0%Q].
Proof.
  exists [GAddVar 0%Q 9%Q; GAddVar 1%Q 9%Q; GAddVar 2%Q 9%Q; GUpdate; GRemoveVars [0%nat]; GOptimize [10%Q; 20%Q]]. eexists. exists 1%nat, 2%nat. eexists.
  split; [vm_compute; reflexivity|]. split; [vm_compute; reflexivity|]. split; [vm_compute; reflexivity|]. split; [reflexivity|]. split; [reflexivity|]. split; [vm_compute; reflexivity|].
  split; [vm_compute; discriminate|]. split; [vm_compute; reflexivity|]. split; [vm_compute; reflexivity|]. vm_compute. reflexivity.
Qed.
Print Assumptions C126_stale_refuted.
(** A Var that has been removed keeps its index after update(), as with the other backends. *)
Theorem C126_removed_refuted :
  exists (cs : list (gcall Q)) (s s' : gmodel Q) (v w : nat), grun empty_gmodel cs = GOk s /\ live_v (h_v (history cs)) = [w] /\ v <> w /\
    g_set_bounds s [v] [5%Q] [6%Q] = GOk s' /\ map gc_lo (g_cols (gm_grb s)) = [1%Q] /\ map gc_lo (g_cols (gm_grb s')) = [5%Q].
Proof.
  exists [GAddVar 0%Q 9%Q; GAddVar 1%Q 9%Q; GUpdate; GRemoveVars [0%nat]; GUpdate]. do 2 eexists. exists 0%nat, 1%nat.
  split; [vm_compute; reflexivity|]. split; [reflexivity|]. split; [lia|]. split; [vm_compute; reflexivity|]. vm_compute. auto.
Qed.
Print Assumptions C126_removed_refuted.
(** setObjective does not look at the return value of GRBaddqpterms: quadratic terms over a variable that is not there (any
    more) are lost silently, together with all the others. *)
Theorem C126_terms_refuted :
  exists (cs : list (gcall Q)) (s s' : gmodel Q) (q : quad Q) (v : nat), grun empty_gmodel cs = GOk s /\
    In v (live_v (h_v (history cs))) /\ g_set_quad s q = GOk s' /\ In v (q_vars1 q) /\ In v (q_vars2 q) /\ q_coeffs q = [1%Q; 1%Q] /\
    g_q (gm_grb s') = [].
Proof.
  exists [GAddVar 0%Q 9%Q; GAddVar 1%Q 9%Q; GUpdate; GRemoveVars [1%nat]; GUpdate]. do 2 eexists.
  exists {| q_aff := aff_const 0%Q; q_coeffs := [1%Q; 1%Q]; q_vars1 := [0; 1]%nat; q_vars2 := [0; 1]%nat |}, 0%nat.
  split; [vm_compute; reflexivity|]. split; [vm_compute; auto|]. split; [vm_compute; reflexivity|]. vm_compute. auto.
Qed.
Print Assumptions C126_terms_refuted.
