(** * The passes of the SQP obey the rules of the Gurobi backend *)
From Coq Require Import List ZArith Bool Arith Lia Reals Lra.
From Verif Require Import Num NumFacts Common ScoExprModel BackendModel BackendSpec BackendProofs GurobiModel GurobiSpec GurobiProofs.
Import ListNotations.
Local Open Scope nat_scope.

Lemma obeys_app a : forall (h : ghist R) b, obeys h (a ++ b) <-> obeys h a /\ obeys (fold_left hnote a h) b.
Proof. induction a as [|c a IH]; intros h b; cbn [app obeys fold_left]; [tauto|]. rewrite IH. tauto. Qed.
Lemma ghist_eq (h : ghist R) : h = {| h_v := h_v h; h_c := h_c h; h_q := h_q h; h_obj := h_obj h; h_kv := h_kv h; h_kc := h_kc h; h_deadv := h_deadv h; h_deadc := h_deadc h |}.
Proof. destruct h; reflexivity. Qed.

Definition new_v (b : R * R) : vfact R := {| v_gone := false; v_lo := fst b; v_hi := snd b |}.
Definition new_c (c : bool * aff R) : cfact R := {| c_gone := false; c_ineq := fst c; c_expr := snd c |}.
Lemma adds_v_fold l : forall h, fold_left hnote (adds_v l) h = hist_v h (h_v h ++ map new_v l) /\ obeys h (adds_v l).
Proof.
  induction l as [|b l IH]; intros h.
  - cbn. rewrite app_nil_r. split; [apply ghist_eq|exact I].
  - cbn [adds_v map fold_left obeys may]. destruct (IH (hnote h (GAddVar (fst b) (snd b)))) as [E O]. split; [|split; [exact I|exact O]].
    unfold adds_v in E. rewrite E. unfold hist_v. cbn [hnote hist_v h_v h_c h_q h_obj h_kv h_kc h_deadv h_deadc]. rewrite <- app_assoc. reflexivity.
Qed.
Lemma adds_c_fold l : forall h, Forall (fun c => wf_aff (snd c) /\ Forall (usable h) (a_vars (snd c))) l ->
  fold_left hnote (adds_c l) h = hist_c h (h_c h ++ map new_c l) /\ obeys h (adds_c l).
Proof.
  induction l as [|b l IH]; intros h F.
  - cbn. rewrite app_nil_r. split; [apply ghist_eq|exact I].
  - inversion F as [|? ? F1 F2]; subst. cbn [adds_c map fold_left obeys may]. destruct (IH (hnote h (GAddCnt (fst b) (snd b))) F2) as [E O].
    split; [|split; [exact F1|exact O]].
    unfold adds_c in E. rewrite E. unfold hist_c. cbn [hnote hist_c h_v h_c h_q h_obj h_kv h_kc h_deadv h_deadc]. rewrite <- app_assoc. reflexivity.
Qed.
Lemma gone_v_ext (f g : list (vfact R)) : map v_gone f = map v_gone g -> gone_v f = gone_v g.
Proof.
  intros E. unfold gone_v. assert (L : length f = length g) by (apply (f_equal (@length bool)) in E; rewrite !map_length in E; exact E).
  rewrite L. apply filter_ext. intros id. rewrite <- !(map_nth v_gone). rewrite E. reflexivity.
Qed.
Lemma live_v_ext (f g : list (vfact R)) : map v_gone f = map v_gone g -> live_v f = live_v g.
Proof.
  intros E. unfold live_v. assert (L : length f = length g) by (apply (f_equal (@length bool)) in E; rewrite !map_length in E; exact E).
  rewrite L. apply filter_ext. intros id. rewrite <- !(map_nth v_gone). rewrite E. reflexivity.
Qed.

(** between the second update() of a pass and the removals *)
Record settled (n : nat) (h : ghist R) : Prop := {
  t_kv : h_kv h = length (h_v h); t_kc : h_kc h = length (h_c h);
  t_dv : h_deadv h = gone_v (h_v h); t_dc : h_deadc h = gone_c (h_c h);
  t_n : n <= length (h_v h); t_perm : forall i, i < n -> v_gone (nth i (h_v h) no_v) = false }.
Lemma settled_use n h i : settled n h -> i < length (h_v h) -> v_gone (nth i (h_v h) no_v) = false -> usable h i.
Proof. intros St L G. split; [rewrite (t_kv _ _ St); exact L|]. rewrite (t_dv _ _ St), gone_in by exact L. congruence. Qed.
Lemma last_of_seq n : forall k vals i d, length vals = n -> last_of (seq k n) vals i d = if (k <=? i) && (i <? k + n) then nth (i - k) vals d else d.
Proof.
  unfold last_of. induction n as [|n IH]; intros k vals i d L; destruct vals as [|v vals]; try discriminate.
  - cbn [seq combine fold_left]. destruct (k <=? i) eqn:E1, (i <? k + 0) eqn:E2; try reflexivity. exfalso. apply Nat.leb_le in E1. apply Nat.ltb_lt in E2. lia.
  - cbn [seq combine fold_left fst snd]. rewrite IH by (cbn in L; lia). destruct (Nat.eqb_spec k i) as [->|Ne].
    + rewrite (proj2 (Nat.leb_gt (S i) i)) by lia. cbn [andb]. rewrite Nat.leb_refl, (proj2 (Nat.ltb_lt i (i + S n))) by lia. rewrite Nat.sub_diag. reflexivity.
    + destruct (k <=? i) eqn:E1.
      * apply Nat.leb_le in E1. rewrite (proj2 (Nat.leb_le (S k) i)) by lia. replace (k + S n) with (S k + n) by lia. cbn [andb].
        replace (i - k) with (S (i - S k)) by lia. destruct (i <? S k + n) eqn:E2; reflexivity.
      * apply Nat.leb_gt in E1. rewrite (proj2 (Nat.leb_gt (S k) i)) by lia. reflexivity.
Qed.
Definition bounded (n : nat) (f f' : list (vfact R)) (lo hi : list R) : Prop :=
  forall i, i < length f -> nth i f' no_v =
    if i <? n then {| v_gone := v_gone (nth i f no_v); v_lo := nth i lo 0%R; v_hi := nth i hi 0%R |} else nth i f no_v.
Lemma solves_fold n l : forall h, settled n h -> Forall (fun b => length (fst (fst b)) = n /\ length (snd (fst b)) = n) l ->
  let h' := fold_left hnote (solves n l) h in
  obeys h (solves n l) /\ settled n h' /\ h_c h' = h_c h /\ h_q h' = h_q h /\ h_obj h' = h_obj h /\ map v_gone (h_v h') = map v_gone (h_v h) /\
  (forall b l0, l = l0 ++ [b] -> bounded n (h_v h) (h_v h') (fst (fst b)) (snd (fst b))).
Proof.
  induction l as [|b l IH]; intros h St F h'.
  - cbn in h'. subst h'. cbn. split; [exact I|]. split; [exact St|]. repeat (split; [reflexivity|]). intros b [|? ?]; discriminate.
  - destruct (Forall_inv F) as [F1 F1']. pose proof (Forall_inv_tail F) as F2. clear F.
    set (h1 := hnote h (GSetBounds (seq 0 n) (fst (fst b)) (snd (fst b)))).
    assert (E1 : map v_gone (h_v h1) = map v_gone (h_v h)) by apply bound_gone.
    assert (L1 : length (h_v h1) = length (h_v h)) by apply bound_len.
    set (h2 := hnote h1 (GOptimize (snd b))).
    assert (St2 : settled n h2).
    { constructor; try reflexivity; cbn [h2 hnote h_v]; fold h1; [rewrite L1; apply (t_n _ _ St)|]. intros i Hi.
      rewrite <- (map_nth v_gone), E1, (map_nth v_gone). apply (t_perm _ _ St). exact Hi. }
    destruct (IH h2 St2 F2) as (O & S' & C1 & C2 & C3 & C4 & C5). fold (solves n l) in h'. change (fold_left hnote (solves n l) h2) with h' in *.
    split; [|split; [exact S'|]].
    + change (solves n (b :: l)) with (GSetBounds (seq 0 n) (fst (fst b)) (snd (fst b)) :: GOptimize (snd b) :: solves n l). cbn [obeys]. split; [|split; [|exact O]].
      * cbn [may]. rewrite seq_length. split; [lia|]. split; [lia|]. apply Forall_forall. intros i Hi. apply in_seq in Hi. apply (settled_use n); [exact St| |apply (t_perm _ _ St); lia].
        pose proof (t_n _ _ St). lia.
      * cbn [may]. fold h1. split; [|apply (eq_sym (t_dc _ _ St))]. rewrite (gone_v_ext _ _ E1). symmetry. apply (t_dv _ _ St).
    + split; [exact C1|]. split; [exact C2|]. split; [exact C3|]. split; [rewrite C4; exact E1|].
      intros b' l0 El. destruct l0 as [|b0 l0].
      * injection El as Eb El. subst b' l. intros i Hi. change (h_v h') with (h_v h1). unfold h1. cbn [hnote hist_v h_v].
        rewrite bound_nth by (rewrite ?seq_length; auto; lia). rewrite !last_of_seq by assumption. cbn [Nat.leb andb Nat.add]. rewrite Nat.sub_0_r.
        destruct (Nat.ltb_spec i n) as [Q|Q].
        -- rewrite (nth_indep (fst (fst b)) _ 0%R) by lia. rewrite (nth_indep (snd (fst b)) _ 0%R) by lia. reflexivity.
        -- destruct (nth i (h_v h) no_v); reflexivity.
      * cbn [app] in El. injection El as Eb El. subst b0. specialize (C5 b' l0 El). intros i Hi.
        change (h_v h2) with (h_v h1) in C5. rewrite C5 by lia. unfold h1. cbn [hnote hist_v h_v]. rewrite bound_nth by (rewrite ?seq_length; auto; lia).
        rewrite !last_of_seq by assumption. cbn [Nat.leb andb Nat.add]. rewrite Nat.sub_0_r. cbn [v_gone].
        destruct (Nat.ltb_spec i n) as [Q|Q]; [reflexivity|]. destruct (nth i (h_v h) no_v); reflexivity.
Qed.
Lemma end_fold (l : list (list nat * list nat)) : forall h : ghist R, Forall (usable_c h) (flat_map fst l) -> Forall (usable h) (flat_map snd l) ->
  let calls := flat_map (fun g => [GRemoveCnts (fst g); GRemoveVars (snd g)]) l in
  obeys h calls /\ fold_left hnote calls h =
    hist_c (hist_v h (fold_left lose_v (flat_map snd l) (h_v h))) (fold_left lose_c (flat_map fst l) (h_c h)).
Proof.
  induction l as [|[cs vs] l IH]; intros h Fc Fv; cbn zeta.
  - cbn. split; [exact I|apply ghist_eq].
  - cbn [flat_map fst snd] in Fc, Fv. apply Forall_app in Fc as [Fc1 Fc2]. apply Forall_app in Fv as [Fv1 Fv2].
    cbn [flat_map app fst snd obeys may fold_left]. destruct (IH (hnote (hnote h (GRemoveCnts cs)) (GRemoveVars vs)) Fc2 Fv2) as [O E]. cbn zeta in O, E.
    split; [split; [exact Fc1|split; [exact Fv1|exact O]]|]. rewrite E, !fold_left_app. reflexivity.
Qed.

(** between two passes: exactly the problem's own variables and constraints are there *)
Record resting (n nc : nat) (h : ghist R) : Prop := {
  z_n : n <= length (h_v h); z_nc : nc <= length (h_c h);
  z_v : forall i, i < length (h_v h) -> v_gone (nth i (h_v h) no_v) = (n <=? i);
  z_c : forall i, i < length (h_c h) -> c_gone (nth i (h_c h) no_c) = (nc <=? i) }.
Definition hist_begun (n : nat) (h h' : ghist R) (r : round R) : Prop :=
  settled n h' /\ h_c h' = h_c h ++ map new_c (r_cnts r) /\ h_q h' = h_q h /\ h_obj h' = r_obj r /\
  map v_gone (h_v h') = map v_gone (h_v h ++ map new_v (r_vars r)) /\
  (forall b l0, r_solves r = l0 ++ [b] -> bounded n (h_v h ++ map new_v (r_vars r)) (h_v h') (fst (fst b)) (snd (fst b))).
Lemma begin_fold n nc h r : resting n nc h -> round_ok n (length (h_v h)) (length (h_c h)) r ->
  obeys h (begin_round n r) /\ hist_begun n h (fold_left hnote (begin_round n r) h) r.
Proof.
  intros [Zn Znc Zv Zc] (R1 & R2 & R3 & R4). unfold begin_round.
  destruct (adds_v_fold (r_vars r) h) as [E1 O1].
  set (h1 := hist_v h (h_v h ++ map new_v (r_vars r))) in *. set (h2 := hnote h1 GUpdate).
  assert (L2 : length (h_v h2) = length (h_v h) + length (r_vars r)) by (cbn; rewrite app_length, map_length; reflexivity).
  assert (P2 : forall v, speaks n (length (h_v h)) (length (r_vars r)) v -> v < length (h_v h2) /\ v_gone (nth v (h_v h2) no_v) = false).
  { intros v Sp. split; [rewrite L2; destruct Sp; lia|]. cbn [h2 h1 hnote hist_v h_v]. destruct Sp as [Sp|Sp].
    - rewrite app_nth1 by lia. rewrite Zv by lia. apply Nat.leb_gt. exact Sp.
    - rewrite app_nth2 by lia. rewrite (nth_indep _ no_v (new_v (0%R, 0%R))) by (rewrite map_length; lia). rewrite map_nth. reflexivity. }
  assert (St2 : settled n h2).
  { constructor; try reflexivity; [rewrite L2; lia|]. intros i Hi. apply P2. left. exact Hi. }
  assert (U2 : forall v, speaks n (length (h_v h)) (length (r_vars r)) v -> usable h2 v).
  { intros v Sp. destruct (P2 v Sp). apply (settled_use n); assumption. }
  destruct (adds_c_fold (r_cnts r) h2) as [E3 O3].
  { eapply Forall_impl; [|exact R1]. cbn beta. intros c [W F]. split; [exact W|]. eapply Forall_impl; [|exact F]. exact U2. }
  set (h3 := hist_c h2 (h_c h2 ++ map new_c (r_cnts r))) in *. set (h4 := hnote h3 GUpdate).
  assert (St4 : settled n h4).
  { constructor; try reflexivity; [cbn [h4 h3 hist_c hnote h_v]; apply (t_n _ _ St2)|]. intros i Hi. apply (t_perm _ _ St2). exact Hi. }
  set (h5 := hnote h4 (GSetQuad (r_obj r))).
  assert (St5 : settled n h5) by (destruct St4; constructor; assumption).
  destruct (solves_fold n (r_solves r) h5 St5 R4) as (O6 & S6 & C1 & C2 & C3 & C4 & C5). cbn zeta in *.
  assert (Ef : fold_left hnote (adds_v (r_vars r) ++ [GUpdate] ++ adds_c (r_cnts r) ++ [GUpdate; GSetQuad (r_obj r)] ++ solves n (r_solves r)) h =
               fold_left hnote (solves n (r_solves r)) h5).
  { rewrite fold_left_app, E1, fold_left_app. cbn [fold_left]. fold h2. rewrite fold_left_app, E3, fold_left_app. reflexivity. }
  rewrite Ef. split.
  - rewrite obeys_app, E1. split; [exact O1|]. rewrite obeys_app. split; [cbn; auto|]. cbn [fold_left]. fold h2. rewrite obeys_app, E3. split; [exact O3|].
    rewrite obeys_app. cbn [fold_left]. fold h4. fold h5. split; [|exact O6]. cbn [obeys may]. split; [exact I|]. split; [|exact I]. split; [|apply (t_kv _ _ St4)].
    assert (U4 : forall v, speaks n (length (h_v h)) (length (r_vars r)) v -> usable h4 v).
    { intros v Sp. apply (settled_use n); [exact St4|exact (proj1 (P2 v Sp))|exact (proj2 (P2 v Sp))]. }
    apply Forall_app in R3 as [R3a R3]. apply Forall_app in R3 as [R3b R3c].
    split; [exact R2|]. split; [|split]; (eapply Forall_impl; [exact U4|eassumption]).
  - split; [exact S6|]. split; [exact C1|]. split; [exact C2|]. split; [exact C3|]. split; [exact C4|exact C5].
Qed.
Lemma begun_gone n nc h h' r i : resting n nc h -> hist_begun n h h' r -> i < length (h_v h) + length (r_vars r) ->
  v_gone (nth i (h_v h') no_v) = ((n <=? i) && (i <? length (h_v h)))%bool.
Proof.
  intros [Zn Znc Zv Zc] (S6 & C1 & C2 & C3 & C4 & C5) Hi. rewrite <- (map_nth v_gone), C4, (map_nth v_gone).
  destruct (Nat.ltb_spec i (length (h_v h))) as [Q|Q].
  - rewrite app_nth1 by exact Q. rewrite Zv by exact Q. rewrite andb_true_r. reflexivity.
  - rewrite app_nth2 by lia. rewrite (nth_indep _ no_v (new_v (0%R, 0%R))) by (rewrite map_length; lia). rewrite map_nth, andb_false_r. reflexivity.
Qed.
Lemma begun_gone_c n nc h h' r i : resting n nc h -> hist_begun n h h' r -> i < length (h_c h) + length (r_cnts r) ->
  c_gone (nth i (h_c h') no_c) = ((nc <=? i) && (i <? length (h_c h)))%bool.
Proof.
  intros [Zn Znc Zv Zc] (S6 & C1 & C2 & C3 & C4 & C5) Hi. rewrite C1.
  destruct (Nat.ltb_spec i (length (h_c h))) as [Q|Q].
  - rewrite app_nth1 by exact Q. rewrite Zc by exact Q. rewrite andb_true_r. reflexivity.
  - rewrite app_nth2 by lia. rewrite (nth_indep _ no_c (new_c (false, aff_const 0%R))) by (rewrite map_length; lia). rewrite map_nth, andb_false_r. reflexivity.
Qed.
Lemma begun_len n h h' r : hist_begun n h h' r -> length (h_v h') = length (h_v h) + length (r_vars r) /\ length (h_c h') = length (h_c h) + length (r_cnts r).
Proof.
  intros (S6 & C1 & C2 & C3 & C4 & C5). split.
  - apply (f_equal (@length bool)) in C4. rewrite !map_length, app_length, map_length in C4. exact C4.
  - rewrite C1, app_length, map_length. reflexivity.
Qed.
Lemma round_fold n nc h r : resting n nc h -> round_ok n (length (h_v h)) (length (h_c h)) r -> round_clean (length (h_v h)) (length (h_c h)) r ->
  let h' := fold_left hnote (begin_round n r ++ end_round r) h in
  obeys h (begin_round n r ++ end_round r) /\ resting n nc h' /\
  length (h_v h') = length (h_v h) + length (r_vars r) /\ length (h_c h') = length (h_c h) + length (r_cnts r) /\
  (forall i, i < length (h_c h) -> c_expr (nth i (h_c h') no_c) = c_expr (nth i (h_c h) no_c) /\ c_ineq (nth i (h_c h') no_c) = c_ineq (nth i (h_c h) no_c)).
Proof.
  intros Z Ro [Q1 Q2] h'. destruct (begin_fold n nc h r Z Ro) as [O1 B]. set (h1 := fold_left hnote (begin_round n r) h) in *.
  destruct (begun_len n h h1 r B) as [L1 L2]. pose proof B as (S6 & C1 & C2 & C3 & C4 & C5).
  assert (Ev : Forall (usable h1) (flat_map snd (r_gone r))).
  { apply Forall_forall. intros i Hi. apply Q2 in Hi. apply (settled_use n); [exact S6|lia|]. rewrite (begun_gone n nc h h1 r i Z B) by lia.
    rewrite (proj2 (Nat.ltb_ge i (length (h_v h)))) by lia. apply andb_false_r. }
  assert (Ec : Forall (usable_c h1) (flat_map fst (r_gone r))).
  { apply Forall_forall. intros i Hi. apply Q1 in Hi. split; [rewrite (t_kc _ _ S6); lia|]. rewrite (t_dc _ _ S6), gone_c_in by lia.
    rewrite (begun_gone_c n nc h h1 r i Z B) by lia. rewrite (proj2 (Nat.ltb_ge i (length (h_c h)))) by lia. rewrite andb_false_r. discriminate. }
  destruct (end_fold (r_gone r) h1 Ec Ev) as [O2 E2]. fold (end_round r) in O2, E2. cbn zeta in O2, E2.
  assert (Eh : h' = hist_c (hist_v h1 (fold_left lose_v (flat_map snd (r_gone r)) (h_v h1))) (fold_left lose_c (flat_map fst (r_gone r)) (h_c h1))).
  { unfold h'. rewrite fold_left_app. exact E2. }
  split; [rewrite obeys_app; split; [exact O1|exact O2]|]. rewrite Eh. cbn [hist_c hist_v h_v h_c]. rewrite lose_v_len, lose_c_len. split; [|split; [exact L1|split; [exact L2|]]].
  - destruct Z as [Zn Znc Zv Zc]. constructor; cbn [hist_c hist_v h_v h_c]; rewrite ?lose_v_len, ?lose_c_len; try lia; try reflexivity.
    + intros i Hi. rewrite lose_v_nth by exact Hi. cbn [v_gone]. rewrite (begun_gone n nc h h1 r i) by (try (constructor; assumption); auto; lia).
      destruct (Nat.ltb_spec i (length (h_v h))) as [Q|Q].
      * rewrite andb_true_r. destruct (mem i _) eqn:M; [|apply orb_false_r]. exfalso. apply mem_In, Q2 in M. lia.
      * rewrite andb_false_r. cbn [orb]. rewrite (proj2 (mem_In i _)) by (apply Q2; lia). symmetry. apply Nat.leb_le. lia.
    + intros i Hi. rewrite lose_c_nth by exact Hi. cbn [c_gone]. rewrite (begun_gone_c n nc h h1 r i) by (try (constructor; assumption); auto; lia).
      destruct (Nat.ltb_spec i (length (h_c h))) as [Q|Q].
      * rewrite andb_true_r. destruct (mem i _) eqn:M; [|apply orb_false_r]. exfalso. apply mem_In, Q1 in M. lia.
      * rewrite andb_false_r. cbn [orb]. rewrite (proj2 (mem_In i _)) by (apply Q1; lia). symmetry. apply Nat.leb_le. lia.
  - intros i Hi. rewrite lose_c_nth by lia. cbn [c_expr c_ineq]. rewrite C1, app_nth1 by exact Hi. split; reflexivity.
Qed.
Lemma rounds_fold n nc l : forall h, resting n nc h -> rounds_ok n (length (h_v h)) (length (h_c h)) l ->
  let h' := fold_left hnote (rounds n l) h in
  obeys h (rounds n l) /\ resting n nc h' /\ length (h_v h') = length (h_v h) + made_v l /\ length (h_c h') = length (h_c h) + made_c l /\
  (forall i, i < length (h_c h) -> c_expr (nth i (h_c h') no_c) = c_expr (nth i (h_c h) no_c) /\ c_ineq (nth i (h_c h') no_c) = c_ineq (nth i (h_c h) no_c)).
Proof.
  induction l as [|r l IH]; intros h Z Ro h'.
  - cbn in h'. subst h'. cbn. split; [exact I|]. split; [exact Z|]. split; [unfold made_v; cbn; lia|]. split; [unfold made_c; cbn; lia|auto].
  - destruct Ro as (Ro & Cl & Rs). destruct (round_fold n nc h r Z Ro Cl) as (O1 & Z1 & L1 & L2 & E1). cbn zeta in *.
    set (h1 := fold_left hnote (begin_round n r ++ end_round r) h) in *. rewrite <- L1, <- L2 in Rs. destruct (IH h1 Z1 Rs) as (O2 & Z2 & L3 & L4 & E2). cbn zeta in *.
    assert (Eh : h' = fold_left hnote (rounds n l) h1). { unfold h', h1. cbn [rounds]. rewrite app_assoc, (fold_left_app hnote (begin_round n r ++ end_round r)). reflexivity. }
    rewrite <- Eh in *. cbn [rounds]. split; [rewrite app_assoc, obeys_app; split; assumption|]. split; [exact Z2|].
    unfold made_v, made_c in *. cbn [map]. unfold list_sum in *. cbn [fold_right]. split; [lia|]. split; [lia|].
    intros i Hi. destruct (E2 i ltac:(lia)) as [A1 A2]. destruct (E1 i Hi) as [B1 B2]. split; congruence.
Qed.
Lemma setup_fold vars cnts : Forall (fun c => wf_aff (snd c) /\ Forall (fun v => v < length vars) (a_vars (snd c))) cnts ->
  let h := fold_left hnote (setup vars cnts) no_hist in
  obeys no_hist (setup vars cnts) /\ resting (length vars) (length cnts) h /\ length (h_v h) = length vars /\ h_c h = map new_c cnts /\ h_q h = [].
Proof.
  intros F h. unfold h, setup. destruct (adds_v_fold vars no_hist) as [E1 O1]. set (h1 := hist_v no_hist (h_v no_hist ++ map new_v vars)) in *.
  set (h2 := hnote h1 GUpdate). destruct (adds_c_fold cnts h2) as [E3 O3].
  { eapply Forall_impl; [|exact F]. cbn beta. intros c [W G]. split; [exact W|]. eapply Forall_impl; [|exact G]. cbn beta. intros v Hv.
    split; [cbn; rewrite map_length; exact Hv|]. cbn [h2 h1 hnote hist_v h_deadv h_v no_hist app]. intros Q. pose proof (gone_range _ _ Q) as L. apply gone_in in Q; [|exact L].
    rewrite (nth_indep _ no_v (new_v (0%R, 0%R))) in Q by exact L. rewrite map_nth in Q. discriminate. }
  rewrite fold_left_app, E1, fold_left_app. cbn [fold_left]. fold h2. rewrite E3. split.
  - rewrite obeys_app, E1. split; [exact O1|]. cbn [app obeys may]. split; [exact I|exact O3].
  - cbn [hist_c hist_v h_v h_c h_q h2 h1 hnote no_hist app]. split; [|split; [apply map_length|split; reflexivity]].
    constructor; cbn [hist_c hist_v h_v h_c h_q h2 h1 hnote no_hist app]; rewrite ?map_length; try lia; try reflexivity.
    + intros i Hi. rewrite (nth_indep _ no_v (new_v (0%R, 0%R))) by (rewrite map_length; exact Hi). rewrite map_nth. symmetry. apply Nat.leb_gt. exact Hi.
    + intros i Hi. rewrite (nth_indep _ no_c (new_c (false, aff_const 0%R))) by (rewrite map_length; exact Hi). rewrite map_nth. symmetry. apply Nat.leb_gt. exact Hi.
Qed.
Lemma filter_range n k m : n <= k -> filter (fun i => negb ((n <=? i) && (i <? k))) (seq 0 (k + m)) = seq 0 n ++ seq k m.
Proof.
  intros L. replace (k + m) with (n + ((k - n) + m)) by lia. rewrite seq_app, filter_app, seq_app, filter_app. cbn [Nat.add].
  replace (n + (k - n)) with k by lia. rewrite (filter_all _ (seq 0 n)).
  2: { intros i Hi. apply in_seq in Hi. rewrite (proj2 (Nat.leb_gt n i)) by lia. reflexivity. }
  rewrite (filter_all _ (seq k m)).
  2: { intros i Hi. apply in_seq in Hi. rewrite (proj2 (Nat.ltb_ge i k)) by lia. rewrite andb_false_r. reflexivity. }
  f_equal. assert (E : filter (fun i => negb ((n <=? i) && (i <? k))) (seq n (k - n)) = []); [|rewrite E; reflexivity].
  assert (K : forall l, (forall i, In i l -> n <= i < k) -> filter (fun i => negb ((n <=? i) && (i <? k))) l = []).
  { induction l as [|a l IH]; intros H1; [reflexivity|]. cbn [filter]. destruct (H1 a (or_introl eq_refl)) as [A B].
    rewrite (proj2 (Nat.leb_le n a) A), (proj2 (Nat.ltb_lt a k) B). cbn. apply IH. intros. apply H1. right. assumption. }
  apply K. intros i Hi. apply in_seq in Hi. lia.
Qed.
