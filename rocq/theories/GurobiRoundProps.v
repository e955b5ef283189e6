(** * C127: the passes of the SQP through the Gurobi backend *)
From Coq Require Import List ZArith Bool Arith Lia Reals Lra.
From Verif Require Import Num NumFacts RSums Common ScoExprModel ScoExprProofs BackendModel BackendSpec BackendProofs GurobiModel GurobiSpec GurobiProofs GurobiProps GurobiRoundProofs.
Import ListNotations.
Local Open Scope R_scope.

Lemma aff_value_agree (e : aff R) X Y : (forall v, In v (a_vars e) -> nth v X 0 = nth v Y 0) -> aff_value e X = aff_value e Y.
Proof.
  intros A. rewrite !aff_value_sum. f_equal. apply rsum_ext. intros [c v] Hin. cbn [fst snd]. rewrite (A v); [reflexivity|]. eapply in_combine_r; exact Hin.
Qed.
Lemma quad_value_agree (q : quad R) X Y : (forall v, In v (a_vars (q_aff q) ++ q_vars1 q ++ q_vars2 q) -> nth v X 0 = nth v Y 0) -> quad_value q X = quad_value q Y.
Proof.
  intros A. rewrite !quad_value_sum. f_equal; [apply aff_value_agree; intros; apply A, in_or_app; left; assumption|]. apply rsum_ext.
  intros [c [v w]] Hin. apply in_combine_r in Hin. cbn [fst snd]. rewrite (A v), (A w); [reflexivity| |]; apply in_or_app; right; apply in_or_app.
  - right. eapply in_combine_r; exact Hin.
  - left. eapply in_combine_l; exact Hin.
Qed.

Lemma ends_app {A} (x : A) a c : (exists cs, c = cs ++ [x]) -> exists cs, a ++ c = cs ++ [x].
Proof. intros (cs & ->). exists (a ++ cs). apply app_assoc. Qed.
(** However many passes were made before, no call of BasicTrustRegionSQP::optimize makes the backend abort, and at every QP of
    every pass Gurobi holds exactly the problem's own variables and constraints and those of this pass: the bounds are those just
    set and those the pass created its variables with, the objective is that of the pass, and nothing is left of earlier passes. *)
Theorem C127_rounds :
  forall (vars : list (R * R)) (cnts : list (bool * aff R)) (done : list (round R)) (r : round R) l0 lo hi p,
  let n := length vars in let nc := length cnts in let k := (n + made_v done)%nat in
  Forall (fun c => wf_aff (snd c) /\ Forall (fun v => (v < n)%nat) (a_vars (snd c))) cnts ->
  rounds_ok n n nc done -> round_ok n k (nc + made_c done) r -> r_solves r = l0 ++ [(lo, hi, p)] ->
  exists s, grun empty_gmodel (setup vars cnts ++ rounds n done ++ begin_round n r) = GOk s /\
    let g := gm_grb s in let ids := seq 0 n ++ seq k (length (r_vars r)) in
    gm_vars s = ids /\ map gc_lo (g_cols g) = lo ++ map fst (r_vars r) /\ map gc_hi (g_cols g) = hi ++ map snd (r_vars r) /\
    g_x g = p /\ g_qrows g = [] /\
    forall X, let x := map (fun id => nth id X 0) ids in
      objective_at g x = quad_value (r_obj r) X /\
      Forall2 (fun row c => row_holds row x <-> if fst c : bool then aff_value (snd c) X <= 0 else aff_value (snd c) X = 0) (g_rows g) (cnts ++ r_cnts r).
Proof.
  intros vars cnts done r l0 lo hi p n nc k W Rd Ro Es.
  destruct (setup_fold vars cnts W) as (O1 & Z1 & L1 & Ec1 & Eq1). set (h1 := fold_left hnote (setup vars cnts) no_hist) in *. fold n nc in Z1, L1.
  assert (Lc1 : length (h_c h1) = nc) by (rewrite Ec1; apply map_length).
  destruct (rounds_fold n nc done h1 Z1) as (O2 & Z2 & L2 & L2c & E2). { rewrite L1, Lc1. exact Rd. }
  cbn zeta in *. set (h2 := fold_left hnote (rounds n done) h1) in *.
  assert (Lk : length (h_v h2) = k) by (rewrite L2, L1; reflexivity). assert (Lkc : length (h_c h2) = (nc + made_c done)%nat) by (rewrite L2c, Lc1; reflexivity).
  destruct (begin_fold n nc h2 r Z2) as (O3 & B). { rewrite Lk, Lkc. exact Ro. }
  set (h3 := fold_left hnote (begin_round n r) h2) in *.
  assert (Eh : history (setup vars cnts ++ rounds n done ++ begin_round n r) = h3).
  { unfold history. rewrite !fold_left_app. reflexivity. }
  assert (Oa : obeys no_hist (setup vars cnts ++ rounds n done ++ begin_round n r)).
  { rewrite obeys_app. split; [exact O1|]. rewrite obeys_app. split; [exact O2|exact O3]. }
  assert (Ea : exists cs, setup vars cnts ++ rounds n done ++ begin_round n r = cs ++ [GOptimize p]).
  { do 2 apply ends_app. unfold begin_round. do 4 apply ends_app. rewrite Es. unfold solves. rewrite flat_map_app. apply ends_app.
    exists [GSetBounds (seq 0 n) lo hi]. reflexivity. }
  destruct Ea as (cs & Ea). rewrite Ea in Oa, Eh. rewrite Ea.
  destruct (C126_program cs (GOptimize p) Oa I) as (s & E & K). exists s. split; [exact E|]. cbv zeta in K |- *. rewrite Eh in K.
  destruct K as (K1 & K2 & _ & _ & _ & K3 & K4 & K5).
  pose proof B as (S3 & C1 & C2 & C3 & C4 & C5). specialize (C5 (lo, hi, p) l0 Es). cbn [fst snd] in C5.
  destruct (begun_len n h2 h3 r B) as [L3 L3c].
  assert (Zn : (n <= k)%nat) by (unfold k; lia).
  assert (Lv : live_v (h_v h3) = seq 0 n ++ seq k (length (r_vars r))).
  { unfold live_v. rewrite L3, Lk. rewrite <- filter_range by exact Zn. apply filter_ext_in. intros i Hi. apply in_seq in Hi. f_equal.
    rewrite (begun_gone n nc h2 h3 r i Z2 B) by (rewrite Lk; lia). rewrite Lk. reflexivity. }
  assert (Lcv : live_c (h_c h3) = seq 0 nc ++ seq (nc + made_c done) (length (r_cnts r))).
  { unfold live_c. rewrite L3c, Lkc. rewrite <- filter_range by lia. apply filter_ext_in. intros i Hi. apply in_seq in Hi. f_equal.
    rewrite (begun_gone_c n nc h2 h3 r i Z2 B) by (rewrite Lkc; lia). rewrite Lkc. reflexivity. }
  assert (Hb : length lo = n /\ length hi = n).
  { destruct Ro as (_ & _ & _ & R4). rewrite Es in R4. apply Forall_app in R4 as [_ R4]. inversion R4; subst. assumption. }
  destruct Hb as [Hlo Hhi].
  assert (Lh : length (h_v h2 ++ map new_v (r_vars r)) = (k + length (r_vars r))%nat) by (rewrite app_length, map_length, Lk; reflexivity).
  assert (Nold : forall i, (i < n)%nat -> nth i (h_v h3) no_v = {| v_gone := false; v_lo := nth i lo 0; v_hi := nth i hi 0 |}).
  { intros i Hi. rewrite C5 by (rewrite Lh; lia). rewrite (proj2 (Nat.ltb_lt i n)) by exact Hi. f_equal. rewrite app_nth1 by lia. rewrite (z_v _ _ _ Z2) by lia. apply Nat.leb_gt. exact Hi. }
  assert (Nnew : forall j, (j < length (r_vars r))%nat -> nth (k + j) (h_v h3) no_v = new_v (nth j (r_vars r) (0, 0))).
  { intros j Hj. rewrite C5 by (rewrite Lh; lia). rewrite (proj2 (Nat.ltb_ge (k + j) n)) by lia. rewrite app_nth2 by lia. rewrite Lk.
    replace (k + j - k)%nat with j by lia. rewrite (nth_indep _ no_v (new_v (0, 0))) by (rewrite map_length; exact Hj). apply map_nth. }
  assert (MapB : forall (f : vfact R -> R) (g : R * R -> R) (b : list R), length b = n -> (forall x, f (new_v x) = g x) ->
     (forall i, (i < n)%nat -> f (nth i (h_v h3) no_v) = nth i b 0) -> map (fun id => f (nth id (h_v h3) no_v)) (seq 0 n ++ seq k (length (r_vars r))) = b ++ map g (r_vars r)).
  { intros f g b Lb Hn Ho. rewrite map_app. f_equal.
    - apply (nth_ext _ _ (f (nth 0 (h_v h3) no_v)) 0); [rewrite map_length, seq_length; symmetry; exact Lb|]. intros j Hj. rewrite map_length, seq_length in Hj.
      rewrite (nth_indep _ _ (f (nth n (h_v h3) no_v))) by (rewrite map_length, seq_length; exact Hj).
      rewrite (map_nth (fun id => f (nth id (h_v h3) no_v))), seq_nth by exact Hj. apply Ho. exact Hj.
    - apply (nth_ext _ _ (f (nth 0 (h_v h3) no_v)) (g (0, 0))); [rewrite !map_length, seq_length; reflexivity|]. intros j Hj. rewrite map_length, seq_length in Hj.
      rewrite (map_nth g). rewrite (nth_indep _ _ (f (nth (k + length (r_vars r)) (h_v h3) no_v))) by (rewrite map_length, seq_length; exact Hj).
      rewrite (map_nth (fun id => f (nth id (h_v h3) no_v))), seq_nth by exact Hj. rewrite Nnew by exact Hj. apply Hn. }
  rewrite Lv in K1, K3, K4. split; [exact K1|]. split; [|split; [|split; [|split]]].
  - rewrite K3. apply (MapB v_lo fst); [exact Hlo|reflexivity|]. intros i Hi. rewrite Nold by exact Hi. reflexivity.
  - rewrite K4. apply (MapB v_hi snd); [exact Hhi|reflexivity|]. intros i Hi. rewrite Nold by exact Hi. reflexivity.
  - clear - E. revert E. generalize (empty_gmodel (T := R)). induction cs as [|a cs IH]; intros s0 E; cbn [app grun] in E.
    + cbn in E. inversion E; subst. reflexivity.
    + destruct (grun1 s0 a) eqn:E1; cbn [gbind] in E; try discriminate. eauto.
  - destruct (K5 []) as (_ & _ & K6 & _). rewrite C2 in K6. assert (Hq : h_q h2 = []).
    { unfold h2. clear - Eq1. revert Eq1. generalize h1. induction done as [|r0 d IH]; intros h Eq1; [exact Eq1|]. cbn [rounds]. rewrite !fold_left_app. apply IH. clear IH.
      assert (N : forall cs h, Forall (fun c => match c with GAddQuadCnt _ => False | _ => True end) cs -> h_q (fold_left (hnote (T := R)) cs h) = h_q h).
      { clear. induction cs as [|c cs IH]; intros h F; [reflexivity|]. inversion F as [|? ? F1 F2]; subst. cbn [fold_left]. rewrite IH by exact F2. destruct c; try destruct F1; reflexivity. }
      rewrite !N; [exact Eq1| |].
      - unfold begin_round, adds_v, adds_c, solves. apply Forall_forall. intros c Hin.
        repeat (apply in_app_or in Hin; destruct Hin as [Hin|Hin]); try (apply in_map_iff in Hin as (? & <- & _); exact I); try (apply in_flat_map in Hin as (? & _ & Hin));
          cbn in Hin; repeat destruct Hin as [<-|Hin]; try exact I; destruct Hin.
      - unfold end_round. apply Forall_forall. intros c Hin. apply in_flat_map in Hin as (? & _ & Hin). cbn in Hin. repeat destruct Hin as [<-|Hin]; try exact I; destruct Hin. }
    rewrite Hq in K6. inversion K6. reflexivity.
  - intros X. set (x := map (fun id => nth id X 0) (seq 0 n ++ seq k (length (r_vars r)))). destruct (K5 X) as (K6 & K7 & _). unfold remaining in K6, K7. rewrite Lv in K6, K7. fold x in K6, K7. rewrite C3 in K6.
    assert (Ag : forall v, speaks n k (length (r_vars r)) v -> nth v (without (h_v h3) X) 0 = nth v X 0).
    { intros v Sp. assert (Hv : (v < length (h_v h3))%nat) by (rewrite L3, Lk; destruct Sp; lia). rewrite without_nth by exact Hv.
      rewrite (begun_gone n nc h2 h3 r v Z2 B) by (rewrite <- L3; exact Hv). rewrite Lk.
      destruct Sp as [Sp|Sp]; [rewrite (proj2 (Nat.leb_gt n v)) by lia; reflexivity|rewrite (proj2 (Nat.ltb_ge v k)) by lia; rewrite andb_false_r; reflexivity]. }
    destruct Ro as (R1 & R2 & R3 & R4). split.
    + rewrite K6. apply quad_value_agree. intros v Hin. apply Ag. rewrite Forall_forall in R3. apply R3. exact Hin.
    + rewrite Lcv in K7.
      assert (Ec : map (fun id => (c_ineq (nth id (h_c h3) no_c), c_expr (nth id (h_c h3) no_c))) (seq 0 nc ++ seq (nc + made_c done) (length (r_cnts r))) = cnts ++ r_cnts r).
      { rewrite map_app. f_equal.
        - apply (nth_ext _ _ (false, aff_const 0) (false, aff_const 0)); [rewrite map_length, seq_length; reflexivity|]. intros i Hi. rewrite map_length, seq_length in Hi.
          rewrite (nth_indep _ _ (c_ineq (nth nc (h_c h3) no_c), c_expr (nth nc (h_c h3) no_c))) by (rewrite map_length, seq_length; exact Hi).
          rewrite (map_nth (fun id => (c_ineq (nth id (h_c h3) no_c), c_expr (nth id (h_c h3) no_c)))), seq_nth by exact Hi. cbn [Nat.add].
          rewrite C1, app_nth1 by lia. destruct (E2 i ltac:(lia)) as [A1 A2]. rewrite A1, A2, Ec1. rewrite (nth_indep _ no_c (new_c (false, aff_const 0))) by (rewrite map_length; exact Hi).
          rewrite map_nth. cbn [new_c c_ineq c_expr]. destruct (nth i cnts (false, aff_const 0)); reflexivity.
        - apply (nth_ext _ _ (false, aff_const 0) (false, aff_const 0)); [rewrite map_length, seq_length; reflexivity|]. intros i Hi. rewrite map_length, seq_length in Hi.
          rewrite (nth_indep _ _ (c_ineq (nth nc (h_c h3) no_c), c_expr (nth nc (h_c h3) no_c))) by (rewrite map_length, seq_length; exact Hi).
          rewrite (map_nth (fun id => (c_ineq (nth id (h_c h3) no_c), c_expr (nth id (h_c h3) no_c)))), seq_nth by exact Hi.
          rewrite C1, app_nth2 by lia. rewrite Lkc. replace (nc + made_c done + i - (nc + made_c done))%nat with i by lia.
          rewrite (nth_indep _ no_c (new_c (false, aff_const 0))) by (rewrite map_length; exact Hi). rewrite map_nth. cbn [new_c c_ineq c_expr]. destruct (nth i (r_cnts r) (false, aff_const 0)); reflexivity. }
      assert (Ws : forall c, In c (cnts ++ r_cnts r) -> forall v, In v (a_vars (snd c)) -> speaks n k (length (r_vars r)) v).
      { intros c Hin v Hv. apply in_app_or in Hin as [Hin|Hin].
        - rewrite Forall_forall in W. destruct (W c Hin) as [_ F]. rewrite Forall_forall in F. left. apply F. exact Hv.
        - rewrite Forall_forall in R1. destruct (R1 c Hin) as [_ F]. rewrite Forall_forall in F. apply F. exact Hv. }
      rewrite <- Ec in Ws |- *. clear - K7 Ws Ag. revert K7 Ws. generalize (g_rows (gm_grb s)). generalize (seq 0 nc ++ seq (nc + made_c done) (length (r_cnts r))).
      induction l as [|id l IH]; intros rows F Ws; inversion F as [|r0 y l1 l2 Q1 Q2]; subst; constructor; [|apply IH; [exact Q2|intros c Hc; apply Ws; right; exact Hc]].
      cbn [fst snd]. cbv zeta in Q1. rewrite Q1. rewrite (aff_value_agree (c_expr (nth id (h_c h3) no_c)) (without (h_v h3) X) X); [reflexivity|].
      intros v Hv. apply Ag. apply (Ws _ (or_introl eq_refl)). exact Hv.
Qed.
Print Assumptions C127_rounds.

(** two passes over a problem with two variables and one constraint: each creates a variable for an absolute value and two
    constraints, solves twice with shrinking bounds and cleans up *)
Definition ex_round (k kc : nat) (w : R) : round R :=
  {| r_vars := [(0, 100); (0, 100)];
     r_cnts := [(false, {| a_const := w; a_coeffs := [1; 1; -1]; a_vars := [0%nat; k; S k] |}); (true, {| a_const := -w; a_coeffs := [2; -1]; a_vars := [1%nat; k] |})];
     r_obj := {| q_aff := {| a_const := 0; a_coeffs := [1; 1]; a_vars := [k; S k] |}; q_coeffs := [1]; q_vars1 := [1%nat]; q_vars2 := [0%nat] |};
     r_solves := [([-1; -1], [1; 1], [0; 0; w; 0]); ([-(1/10); -(1/10)], [1/10; 1/10], [0; 0; 0; w])];
     r_gone := [([kc; S kc], [k]); ([], [S k])] |}.
Example C127_example :
  exists s, grun empty_gmodel (setup [(-5, 5); (-6, 6)] [(true, {| a_const := 1; a_coeffs := [1]; a_vars := [1%nat] |})] ++
                               rounds 2 [ex_round 2 1 7; ex_round 4 3 8] ++ begin_round 2 (ex_round 6 5 9)) = GOk s /\
    gm_vars s = [0; 1; 6; 7]%nat /\ map gc_hi (g_cols (gm_grb s)) = [1/10; 1/10; 100; 100] /\ g_x (gm_grb s) = [0; 0; 0; 9] /\
    length (g_rows (gm_grb s)) = 3%nat /\ objective_at (gm_grb s) [3; 5; 1; 2] = 1 + 2 + 5 * 3.
Proof.
  assert (Ok : forall k kc w, (2 <= k)%nat -> round_ok 2 k kc (ex_round k kc w)).
  { intros k kc w L. unfold round_ok, ex_round, wf_quad, wf_aff, speaks. cbn. 
    split; [repeat (constructor; try (split; [reflexivity|])); cbn; lia|]. split; [repeat split|]. split; [repeat constructor; cbn; lia|]. repeat (constructor; try (split; reflexivity)). }
  assert (Cl : forall k kc w, round_clean k kc (ex_round k kc w)).
  { intros k kc w. split; intros i; cbn; lia. }
  destruct (C127_rounds [(-5, 5); (-6, 6)] [(true, {| a_const := 1; a_coeffs := [1]; a_vars := [1%nat] |})] [ex_round 2 1 7; ex_round 4 3 8] (ex_round 6 5 9)
    [([-1; -1], [1; 1], [0; 0; 9; 0])] [-(1/10); -(1/10)] [1/10; 1/10] [0; 0; 0; 9]) as (s & E & K1 & K2 & K3 & K4 & K5 & K6).
  - constructor; [|constructor]. split; [reflexivity|]. constructor; [cbn; lia|constructor].
  - split; [apply Ok; lia|]. split; [apply Cl|]. split; [apply Ok; cbn; lia|]. split; [apply Cl|exact I].
  - apply Ok. cbn. lia.
  - reflexivity.
  - exists s. split; [exact E|]. split; [exact K1|]. split; [exact K3|]. split; [exact K4|]. specialize (K6 [3; 5; 0; 0; 0; 0; 1; 2]). destruct K6 as [K6 K7].
    split; [apply Forall2_len in K7; exact K7|]. cbn [length made_v map list_sum fold_right seq app nth] in K6. 
    change (map (fun id => nth id [3; 5; 0; 0; 0; 0; 1; 2] 0) (seq 0 2 ++ seq (2 + made_v [ex_round 2 1 7; ex_round 4 3 8]) 2)) with [3; 5; 1; 2] in K6.
    etransitivity; [exact K6|]. unfold quad_value, aff_value, var_value. cbn. rnum. ring.
Qed.
