(** * The passes of the SQP: calls, histories and the points where QPs are solved *)
From Coq Require Import List ZArith Bool Arith Lia Reals Lra.
From Verif Require Import Num NumFacts Common ScoExprModel BackendModel BackendSpec BackendProofs BackendProps GurobiModel GurobiSpec GurobiProofs GurobiRoundProofs
  SolveModel SolveSpec SolveProofs RoundSolveSpec.
Import ListNotations.
Local Open Scope nat_scope.

(** ** the facts of BackendSpec.v and the history of GurobiSpec.v agree *)
Definition plain (c : gcall R) : Prop := match c with GSetAff _ | GAddQuadCnt _ => False | _ => True end.
Lemma calls_app {A} (a b : list (pstep A)) : calls_of (a ++ b) = calls_of a ++ calls_of b.
Proof. apply map_app. Qed.
Lemma set_nth_end {A} (l : list A) x y : set_nth (l ++ [x]) (length l) y = l ++ [y].
Proof. induction l as [|a l IH]; [reflexivity|]. cbn. rewrite IH. reflexivity. Qed.
Lemma tr1_v {A} (run : list R -> A) inf h c : fold_left (note_v inf) (calls_of (tr1 run (length (h_v h)) c)) (h_v h) = h_v (hnote h c).
Proof.
  destruct c; try reflexivity; cbn [tr1 hnote hist_v hist_c h_v].
  - cbn [calls_of map fold_left note_v]. rewrite set_nth_end. f_equal. rewrite app_nth2, Nat.sub_diag by lia. reflexivity.
  - generalize (h_v h). induction vars as [|v vs IH]; intros f; [reflexivity|]. cbn [map calls_of fold_left note_v]. apply IH.
  - generalize (h_v h). induction (combine vars (combine lower upper)) as [|v vs IH]; intros f; [reflexivity|]. cbn [map calls_of fold_left note_v]. apply IH.
  - generalize (h_v h). induction cnts as [|v vs IH]; intros f; [reflexivity|]. cbn [map calls_of fold_left note_v]. apply IH.
Qed.
Lemma tr1_c {A} (run : list R -> A) h k c : fold_left note_c (calls_of (tr1 run k c)) (h_c h) = h_c (hnote h c).
Proof.
  destruct c; try reflexivity; cbn [tr1 hnote hist_c hist_v h_c].
  - generalize (h_c h). induction vars as [|v vs IH]; intros f; [reflexivity|]. cbn [map calls_of fold_left note_c]. apply IH.
  - generalize (h_c h). induction (combine vars (combine lower upper)) as [|v vs IH]; intros f; [reflexivity|]. cbn [map calls_of fold_left note_c]. apply IH.
  - generalize (h_c h). induction cnts as [|v vs IH]; intros f; [reflexivity|]. cbn [map calls_of fold_left note_c]. apply IH.
Qed.
Lemma tr1_o {A} (run : list R -> A) h k c : plain c -> fold_left note_o (calls_of (tr1 run k c)) (Some (h_obj h)) = Some (h_obj (hnote h c)).
Proof.
  destruct c; intros P; try reflexivity; try destruct P; cbn [tr1 hnote hist_c hist_v h_obj].
  - generalize (h_obj h). induction vars as [|v vs IH]; intros f; [reflexivity|]. cbn [map calls_of fold_left note_o]. apply IH.
  - generalize (h_obj h). induction (combine vars (combine lower upper)) as [|v vs IH]; intros f; [reflexivity|]. cbn [map calls_of fold_left note_o]. apply IH.
  - generalize (h_obj h). induction cnts as [|v vs IH]; intros f; [reflexivity|]. cbn [map calls_of fold_left note_o]. apply IH.
Qed.
Lemma made1_len (h : ghist R) c : made1 (length (h_v h)) c = length (h_v (hnote h c)).
Proof. destruct c; try reflexivity; cbn; rewrite ?app_length, ?lose_v_len, ?bound_len; cbn; lia. Qed.
Lemma translate_facts {A} (run : list R -> A) inf cs : forall h, Forall plain cs -> let ps := calls_of (translate run (length (h_v h)) cs) in let h' := fold_left hnote cs h in
  fold_left (note_v inf) ps (h_v h) = h_v h' /\ fold_left note_c ps (h_c h) = h_c h' /\ fold_left note_o ps (Some (h_obj h)) = Some (h_obj h').
Proof.
  induction cs as [|c cs IH]; intros h F; cbn zeta; [split; [reflexivity|split; reflexivity]|]. cbn [translate fold_left].
  rewrite calls_app, !fold_left_app, tr1_v, tr1_c, tr1_o by (inversion F; assumption). rewrite made1_len. apply IH. inversion F; assumption.
Qed.
Lemma translate_app {A} (run : list R -> A) a : forall h b, translate run (length (h_v h)) (a ++ b) = translate run (length (h_v h)) a ++ translate run (length (h_v (fold_left hnote a h))) b.
Proof. induction a as [|c a IH]; intros h b; [reflexivity|]. cbn [app translate fold_left]. rewrite made1_len, IH, app_assoc. reflexivity. Qed.

(** ** the calls only mention what exists *)
Fixpoint live_bounds (h : ghist R) (cs : list (gcall R)) : Prop :=
  match cs with
  | [] => True
  | c :: cs => match c with GSetBounds vs _ _ => Forall (fun i => i < length (h_v h) /\ v_gone (nth i (h_v h) no_v) = false) vs | _ => True end /\ live_bounds (hnote h c) cs
  end.
Lemma sane_app inf a : forall (vf : list (vfact R)) cf b, sane inf vf cf (a ++ b) <-> sane inf vf cf a /\ sane inf (fold_left (note_v inf) a vf) (fold_left note_c a cf) b.
Proof. induction a as [|c a IH]; intros vf cf b; cbn [app sane fold_left]; [tauto|]. rewrite IH. tauto. Qed.
Lemma sane_tr1 {A} (run : list R -> A) inf h c : may h c -> h_kv h <= length (h_v h) -> h_kc h <= length (h_c h) -> live_bounds h [c] ->
  sane inf (h_v h) (h_c h) (calls_of (tr1 run (length (h_v h)) c)).
Proof.
  intros M Kv Kc [B _]. destruct c; cbn [tr1 may] in *; try (cbn; tauto).
  - cbn. split; [exact I|]. split; [|exact I]. rewrite app_length. cbn. split; [lia|]. rewrite app_nth2, Nat.sub_diag by lia. reflexivity.
  - assert (F : Forall (fun i => i < length (h_v h)) vars) by (eapply Forall_impl; [|exact M]; cbn beta; unfold usable; intros; lia). clear M B.
    revert F. generalize (h_v h). induction vars as [|v vs IH]; intros f F; [exact I|]. inversion F; subst. cbn [map calls_of sane]. split; [assumption|].
    apply IH. cbn [note_v]. eapply Forall_impl; [|eassumption]. cbn beta. intros i Hi. rewrite set_nth_length. exact Hi.
  - clear M. assert (F : Forall (fun b : nat * (R * R) => fst b < length (h_v h) /\ v_gone (nth (fst b) (h_v h) no_v) = false) (combine vars (combine lower upper))).
    { apply Forall_forall. intros [i lu] Hin. apply in_combine_l in Hin. rewrite Forall_forall in B. exact (B i Hin). }
    clear B. revert F. generalize (h_v h). induction (combine vars (combine lower upper)) as [|v vs IH]; intros f F; [exact I|]. inversion F as [|? ? F1 F2]; subst. cbn [map calls_of sane]. split; [assumption|].
    apply IH. cbn [note_v]. eapply Forall_impl; [|eassumption]. cbn beta. intros i [Hi1 Hi2]. rewrite set_nth_length. split; [exact Hi1|].
    rewrite set_nth_nth. destruct (Nat.eqb_spec (fst i) (fst v)) as [Ei|Ei]; cbn [andb]; [|exact Hi2]. destruct (_ <? _); [|exact Hi2]. cbn [v_gone]. apply F1.
  - assert (F : Forall (fun i => i < length (h_c h)) cnts) by (eapply Forall_impl; [|exact M]; cbn beta; unfold usable_c; intros; lia). clear M B.
    revert F. generalize (h_c h). induction cnts as [|v vs IH]; intros f F; [exact I|]. inversion F; subst. cbn [map calls_of sane]. split; [assumption|].
    apply IH. cbn [note_c]. eapply Forall_impl; [|eassumption]. cbn beta. intros i Hi. rewrite set_nth_length. exact Hi.
Qed.
Lemma kept_counts (h : ghist R) c : h_kv h <= length (h_v h) -> h_kc h <= length (h_c h) ->
  h_kv (hnote h c) <= length (h_v (hnote h c)) /\ h_kc (hnote h c) <= length (h_c (hnote h c)).
Proof. intros Kv Kc. destruct c; cbn; rewrite ?app_length, ?lose_v_len, ?lose_c_len, ?bound_len; cbn; lia. Qed.
Lemma translate_sane {A} (run : list R -> A) inf cs : forall h, obeys h cs -> live_bounds h cs -> h_kv h <= length (h_v h) -> h_kc h <= length (h_c h) ->
  sane inf (h_v h) (h_c h) (calls_of (translate run (length (h_v h)) cs)).
Proof.
  induction cs as [|c cs IH]; intros h O B Kv Kc; [exact I|]. destruct O as [M O]. destruct B as [B1 B]. cbn [translate]. rewrite calls_app, sane_app.
  split; [apply sane_tr1; auto; split; [exact B1|exact I]|]. rewrite tr1_v, tr1_c, made1_len. destruct (kept_counts h c Kv Kc). apply IH; assumption.
Qed.
(** calls that set bounds of the first [n] variables only and do not remove those *)
Definition spare (n : nat) (c : gcall R) : Prop :=
  match c with GRemoveVars vs => Forall (fun i => n <= i) vs | GSetBounds vs _ _ => Forall (fun i => i < n) vs | _ => True end.
Definition first_live (n : nat) (h : ghist R) : Prop := forall i, i < n -> i < length (h_v h) /\ v_gone (nth i (h_v h) no_v) = false.
Lemma spare_live n h c : first_live n h -> spare n c -> live_bounds h [c] /\ first_live n (hnote h c).
Proof.
  intros F Sp. split.
  - split; [|exact I]. destruct c; try exact I. cbn [spare] in Sp. eapply Forall_impl; [|exact Sp]. cbn beta. intros i Hi. apply F, Hi.
  - intros i Hi. destruct (F i Hi) as [L G]. destruct c; cbn [hnote hist_v hist_c hist_obj h_v]; try (split; assumption).
    + rewrite app_length. split; [lia|]. rewrite app_nth1 by exact L. exact G.
    + rewrite lose_v_len. split; [exact L|]. rewrite lose_v_nth by exact L. cbn [v_gone]. rewrite G. cbn [orb].
      destruct (mem i vars) eqn:M; [|reflexivity]. apply mem_In in M. cbn [spare] in Sp. rewrite Forall_forall in Sp. specialize (Sp i M). lia.
    + rewrite bound_len. split; [exact L|]. rewrite <- (map_nth v_gone), bound_gone, (map_nth v_gone). exact G.
Qed.
Lemma spares_live n cs : forall h, first_live n h -> Forall (spare n) cs -> live_bounds h cs /\ first_live n (fold_left hnote cs h).
Proof.
  induction cs as [|c cs IH]; intros h F Sp; [split; [exact I|exact F]|]. inversion Sp as [|? ? S1 S2]; subst. destruct (spare_live n h c F S1) as [[B1 _] F1].
  destruct (IH _ F1 S2) as [B2 F2]. cbn [live_bounds fold_left]. split; [split; assumption|exact F2].
Qed.
Lemma live_bounds_app a : forall h b, live_bounds h (a ++ b) <-> live_bounds h a /\ live_bounds (fold_left hnote a h) b.
Proof. induction a as [|c a IH]; intros h b; cbn [app live_bounds fold_left]; [tauto|]. rewrite IH. tauto. Qed.

(** ** the history where a QP is solved *)
Record at_qp (n k : nat) (cnts : list (bool * aff R)) (r : round R) (lo hi : list R) (h : ghist R) : Prop := {
  q_live : live_v (h_v h) = seq 0 n ++ seq k (length (r_vars r));
  q_cnts : map (fun id => (c_ineq (nth id (h_c h) no_c), c_expr (nth id (h_c h) no_c))) (live_c (h_c h)) = cnts ++ r_cnts r;
  q_old : forall i, i < n -> nth i (h_v h) no_v = {| v_gone := false; v_lo := nth i lo 0%R; v_hi := nth i hi 0%R |};
  q_new : forall j, j < length (r_vars r) -> nth (k + j) (h_v h) no_v = new_v (nth j (r_vars r) (0, 0)%R);
  q_obj : h_obj h = r_obj r }.
Definition cut (r : round R) (l : list (list R * list R * list R)) : round R :=
  {| r_vars := r_vars r; r_cnts := r_cnts r; r_obj := r_obj r; r_solves := l; r_gone := r_gone r |}.
Lemma cut_round n r l0 lo hi p : begin_round n (cut r (l0 ++ [(lo, hi, p)])) = to_solve n r l0 lo hi ++ [GOptimize p].
Proof.
  unfold begin_round, to_solve, solves. cbn [cut r_vars r_cnts r_obj r_solves]. rewrite flat_map_app. cbn [flat_map fst snd app].
  repeat (rewrite <- app_assoc; cbn [app]). reflexivity.
Qed.
Lemma adds_v_spare n l : Forall (spare n) (adds_v l) /\ Forall plain (adds_v l).
Proof. split; apply Forall_forall; intros c Hin; apply in_map_iff in Hin as (? & <- & _); exact I. Qed.
Lemma adds_c_spare n l : Forall (spare n) (adds_c l) /\ Forall plain (adds_c l).
Proof. split; apply Forall_forall; intros c Hin; apply in_map_iff in Hin as (? & <- & _); exact I. Qed.
Lemma solves_spare n l : Forall (spare n) (solves n l) /\ Forall plain (solves n l).
Proof.
  split; apply Forall_forall; intros c Hin; apply in_flat_map in Hin as (? & _ & [<-|[<-|[]]]); try exact I. apply Forall_forall. intros i Hi. apply in_seq in Hi. lia.
Qed.
Lemma begin_spare n r : Forall (spare n) (begin_round n r) /\ Forall plain (begin_round n r).
Proof.
  unfold begin_round. destruct (adds_v_spare n (r_vars r)), (adds_c_spare n (r_cnts r)), (solves_spare n (r_solves r)).
  split; repeat (apply Forall_app; split); auto; repeat (constructor; try exact I).
Qed.
Lemma to_solve_spare n r l0 lo hi : Forall (spare n) (to_solve n r l0 lo hi) /\ Forall plain (to_solve n r l0 lo hi).
Proof.
  destruct (begin_spare n (cut r (l0 ++ [(lo, hi, [])]))) as [A B]. rewrite cut_round in A, B. apply Forall_app in A as [A _]. apply Forall_app in B as [B _]. split; assumption.
Qed.
Lemma end_spare n k kc r : n <= k -> round_clean k kc r -> Forall (spare n) (end_round r) /\ Forall plain (end_round r).
Proof.
  intros L [_ Cl]. split; apply Forall_forall; intros c Hin; apply in_flat_map in Hin as (g & Hg & [<-|[<-|[]]]); try exact I.
  apply Forall_forall. intros i Hi. assert (In i (flat_map snd (r_gone r))) as K by (apply in_flat_map; exists g; split; assumption). apply Cl in K. lia.
Qed.
Lemma rounds_spare n l : forall k kc, n <= k -> rounds_ok n k kc l -> Forall (spare n) (rounds n l) /\ Forall plain (rounds n l).
Proof.
  induction l as [|r l IH]; intros k kc L F; [split; constructor|]. destruct F as (_ & Cl & F). cbn [rounds].
  destruct (begin_spare n r), (end_spare n k kc r L Cl). destruct (IH (k + length (r_vars r)) (kc + length (r_cnts r))) as [? ?]; [lia|exact F|]. split; (apply Forall_app; split; [assumption|]; apply Forall_app; split; assumption).
Qed.

Section Pass.
  Context (vars : list (R * R)) (cnts : list (bool * aff R)) (done : list (round R)) (r : round R) (l0 l2 : list (list R * list R * list R)) (lo hi p : list R).
  Let n := length vars. Let nc := length cnts. Let k := n + made_v done.
  Hypothesis W : Forall (fun c => wf_aff (snd c) /\ Forall (fun v => v < n) (a_vars (snd c))) cnts.
  Hypothesis Rd : rounds_ok n n nc done.
  Hypothesis Ro : round_ok n k (nc + made_c done) r.
  Hypothesis Es : r_solves r = l0 ++ (lo, hi, p) :: l2.
  Let G := setup vars cnts ++ rounds n done ++ to_solve n r l0 lo hi.
  Lemma pass_hist : obeys no_hist G /\ live_bounds no_hist G /\ Forall plain G /\ at_qp n k cnts r lo hi (history G).
  Proof using W Rd Ro Es.
    destruct (setup_fold vars cnts W) as (O1 & Z1 & L1 & Ec1 & Eq1). set (h1 := fold_left hnote (setup vars cnts) no_hist) in *. fold n nc in Z1, L1.
    assert (Lc1 : length (h_c h1) = nc) by (rewrite Ec1; apply map_length).
    destruct (rounds_fold n nc done h1 Z1) as (O2 & Z2 & L2 & L2c & E2). { rewrite L1, Lc1. exact Rd. }
    cbn zeta in *. set (h2 := fold_left hnote (rounds n done) h1) in *.
    assert (Lk : length (h_v h2) = k) by (rewrite L2, L1; reflexivity). assert (Lkc : length (h_c h2) = (nc + made_c done)%nat) by (rewrite L2c, Lc1; reflexivity).
    set (r' := cut r (l0 ++ [(lo, hi, p)])).
    assert (Ro' : round_ok n k (nc + made_c done) r').
    { destruct Ro as (R1 & R2 & R3 & R4). split; [exact R1|]. split; [exact R2|]. split; [exact R3|]. cbn [r' cut r_solves]. rewrite Es in R4.
      apply Forall_app in R4 as [R4 R5]. apply Forall_app. split; [exact R4|]. inversion R5; subst. constructor; [assumption|constructor]. }
    destruct (begin_fold n nc h2 r' Z2) as (O3 & B). { rewrite Lk, Lkc. exact Ro'. }
    unfold r' in O3, B. rewrite cut_round in O3, B. fold r' in B. apply obeys_app in O3 as [O3 _]. rewrite fold_left_app in B.
    set (h3 := fold_left hnote (to_solve n r l0 lo hi) h2) in *. cbn [fold_left] in B.
    assert (Eh : history G = h3). { unfold history, G. rewrite !fold_left_app. reflexivity. }
    split; [unfold G; rewrite obeys_app; split; [exact O1|]; rewrite obeys_app; split; [exact O2|exact O3]|].
    assert (Zn : n <= k) by (unfold k; lia).
    split; [|split].
    - unfold G. apply live_bounds_app. split; [apply (spares_live 0)|fold h1; apply (spares_live n)].
      + intros i Hi. lia.
      + unfold setup. repeat (apply Forall_app; split); try apply adds_v_spare; try apply adds_c_spare. repeat (constructor; try exact I).
      + intros i Hi. split; [lia|]. rewrite (z_v _ _ _ Z1) by lia. apply Nat.leb_gt. exact Hi.
      + apply Forall_app. split; [apply (rounds_spare n done n nc (le_n n) Rd)|apply to_solve_spare].
    - unfold G. apply Forall_app. split; [|apply Forall_app; split; [apply (rounds_spare n done n nc (le_n n) Rd)|apply to_solve_spare]].
      unfold setup. apply Forall_app. split; [apply (adds_v_spare n)|]. constructor; [exact I|]. apply (adds_c_spare n).
    - rewrite Eh. pose proof B as (S3 & C1 & C2 & C3 & C4 & C5). specialize (C5 (lo, hi, p) l0 eq_refl). cbn [fst snd] in C5.
      destruct (begun_len n h2 _ r' B) as [L3 L3c]. cbn [hnote h_v h_c h_obj] in L3, L3c, C1, C3, C4, C5. cbn [r' cut r_vars r_cnts r_obj] in L3, L3c, C1, C3, C4, C5.
      assert (Gv : forall i, i < k + length (r_vars r) -> v_gone (nth i (h_v h3) no_v) = ((n <=? i) && (i <? k))%bool).
      { intros i Hi. rewrite <- Lk. exact (begun_gone n nc h2 _ r' i Z2 B ltac:(rewrite Lk; exact Hi)). }
      assert (Gc : forall i, i < nc + made_c done + length (r_cnts r) -> c_gone (nth i (h_c h3) no_c) = ((nc <=? i) && (i <? nc + made_c done))%bool).
      { intros i Hi. rewrite <- Lkc. exact (begun_gone_c n nc h2 _ r' i Z2 B ltac:(rewrite Lkc; exact Hi)). }
      assert (Lh : length (h_v h2 ++ map new_v (r_vars r)) = (k + length (r_vars r))%nat) by (rewrite app_length, map_length, Lk; reflexivity).
      constructor.
      + unfold live_v. rewrite L3, Lk. rewrite <- filter_range by exact Zn. apply filter_ext_in. intros i Hi. apply in_seq in Hi. f_equal. apply Gv. lia.
      + assert (Lcv : live_c (h_c h3) = seq 0 nc ++ seq (nc + made_c done) (length (r_cnts r))).
        { unfold live_c. rewrite L3c, Lkc. rewrite <- filter_range by lia. apply filter_ext_in. intros i Hi. apply in_seq in Hi. f_equal. apply Gc. lia. }
        rewrite Lcv, map_app. set (f := fun id => (c_ineq (nth id (h_c h3) no_c), c_expr (nth id (h_c h3) no_c))).
        assert (Part : forall a l, (forall i, i < length l -> f (a + i) = nth i l (false, aff_const 0%R)) -> map f (seq a (length l)) = l).
        { intros a l K. apply (nth_ext _ _ (f 0) (false, aff_const 0%R)); [rewrite map_length, seq_length; reflexivity|]. intros i Hi. rewrite map_length, seq_length in Hi.
          rewrite map_nth, <- K by exact Hi. f_equal. rewrite (nth_indep _ 0 (a + i)) by (rewrite seq_length; exact Hi). apply seq_nth. exact Hi. }
        f_equal; apply Part; intros i Hi; unfold f; rewrite C1.
        * cbn [Nat.add]. rewrite app_nth1 by (fold nc in Hi; lia). destruct (E2 i ltac:(fold nc in Hi; lia)) as [A1 A2]. rewrite A1, A2, Ec1.
          rewrite (nth_indep _ no_c (new_c (false, aff_const 0%R))) by (rewrite map_length; exact Hi). rewrite map_nth. cbn [new_c c_ineq c_expr]. symmetry; apply surjective_pairing.
        * rewrite app_nth2 by lia. rewrite Lkc. replace (nc + made_c done + i - (nc + made_c done))%nat with i by lia.
          rewrite (nth_indep _ no_c (new_c (false, aff_const 0%R))) by (rewrite map_length; exact Hi). rewrite map_nth. cbn [new_c c_ineq c_expr]. symmetry; apply surjective_pairing.
      + intros i Hi. rewrite C5 by (rewrite Lh; lia). rewrite (proj2 (Nat.ltb_lt i n)) by exact Hi. f_equal. rewrite app_nth1 by lia. rewrite (z_v _ _ _ Z2) by lia. apply Nat.leb_gt. exact Hi.
      + intros j Hj. rewrite C5 by (rewrite Lh; lia). rewrite (proj2 (Nat.ltb_ge (k + j) n)) by lia. rewrite app_nth2 by lia. rewrite Lk.
        replace (k + j - k)%nat with j by lia. rewrite (nth_indep _ no_v (new_v (0, 0)%R)) by (rewrite map_length; exact Hj). apply map_nth.
      + exact C3.
  Qed.

  Context (inf : R).
  Hypothesis Inf : (0 < inf)%R.
  Hypothesis Co : consts_ok inf (cnts ++ r_cnts r).
  Lemma pass_problem {A} (run : list R -> A) : let cs := calls_of (translate run 0 G) in
    well_posed inf cs (r_obj r) /\ live_v (vfacts inf cs) = seq 0 n ++ seq k (length (r_vars r)) /\
    forall eps X, fits_problem inf eps cs X <-> fits_pass inf eps k cnts r lo hi X.
  Proof using W Rd Ro Es Inf Co.
    cbv zeta. destruct pass_hist as (O & B & P & [Q1 Q2 Q3 Q4 Q5]).
    destruct (translate_facts run inf G no_hist P) as (Fv & Fc & Fo). cbn zeta in Fv, Fc, Fo. fold (history G) in Fv, Fc, Fo. cbn [no_hist h_v h_c h_obj length] in Fv, Fc, Fo.
    set (cs := calls_of (translate run 0 G)) in *. assert (Ev : vfacts inf cs = h_v (history G)) by exact Fv. assert (Ec : cfacts cs = h_c (history G)) by exact Fc.
    assert (Hb : length lo = n /\ length hi = n).
    { destruct Ro as (_ & _ & _ & R4). rewrite Es in R4. apply Forall_app in R4 as [_ R4]. inversion R4; subst. assumption. }
    destruct Hb as [Hlo Hhi].
    assert (Liv : forall v, speaks n k (length (r_vars r)) v -> In v (live_v (vfacts inf cs))).
    { intros v Sp. rewrite Ev, Q1. apply in_or_app. destruct Sp; [left|right]; apply in_seq; lia. }
    assert (All : forall c, In c (cnts ++ r_cnts r) -> wf_aff (snd c) /\ Forall (speaks n k (length (r_vars r))) (a_vars (snd c))).
    { intros c Hin. apply in_app_or in Hin as [Hin|Hin].
      - rewrite Forall_forall in W. destruct (W c Hin) as [W1 W2]. split; [exact W1|]. eapply Forall_impl; [|exact W2]. cbn beta. intros v Hv. left. exact Hv.
      - destruct Ro as (R1 & _). rewrite Forall_forall in R1. apply R1. exact Hin. }
    assert (Inc : forall id, In id (live_c (cfacts cs)) -> In (c_ineq (nth id (cfacts cs) no_c), c_expr (nth id (cfacts cs) no_c)) (cnts ++ r_cnts r)).
    { intros id Hid. rewrite Ec in *. rewrite <- Q2. apply (in_map (fun id => (c_ineq (nth id (h_c (history G)) no_c), c_expr (nth id (h_c (history G)) no_c)))). exact Hid. }
    split; [|split].
    - split; [exact Inf|]. split; [exact (translate_sane run inf G no_hist O B (le_n 0) (le_n 0))|]. split; [|split; [rewrite <- Q5; exact Fo|]].
      + intros id Hid. cbv zeta. specialize (Inc id Hid). destruct (All _ Inc) as [A1 A2]. cbn [snd] in A1, A2. split; [exact A1|]. split.
        * eapply Forall_impl; [|exact A2]. exact Liv.
        * unfold consts_ok in Co. rewrite Forall_forall in Co. exact (Co _ Inc).
      + destruct Ro as (_ & R2 & R3 & _). split; [exact R2|]. apply Forall_app in R3 as [R3 R4]. apply Forall_app in R4 as [R4 R5].
        split; [|split]; eapply Forall_impl; try exact Liv; assumption.
    - rewrite Ev. exact Q1.
    - intros eps X. split.
      + intros [F1 F2]. split; [|split].
        * intros c Hin. rewrite <- Q2 in Hin. apply in_map_iff in Hin as (id & <- & Hid). rewrite Ec in F1. exact (F1 id Hid).
        * intros i Hi. rewrite Hlo in Hi. specialize (F2 i (Liv i (or_introl Hi))). rewrite Ev, Q3 in F2 by exact Hi. exact F2.
        * intros j Hj. assert (Sp : speaks n k (length (r_vars r)) (k + j)) by (right; lia). specialize (F2 (k + j) (Liv (k + j) Sp)). rewrite Ev, Q4 in F2 by exact Hj. exact F2.
      + intros (F1 & F2 & F3). split.
        * intros id Hid. exact (F1 _ (Inc id Hid)).
        * intros id Hid. rewrite Ev in *. rewrite Q1 in Hid. apply in_app_or in Hid as [Hid|Hid]; apply in_seq in Hid.
          -- rewrite Q3 by lia. apply F2. lia.
          -- replace id with (k + (id - k)) by lia. rewrite Q4 by lia. apply F3. lia.
  Qed.
End Pass.

(** ** every QP before is one of a pass, too *)
Lemma split_app {A} (x : A) : forall l1 l2 pre post, l1 ++ l2 = pre ++ x :: post ->
  (exists m, l1 = pre ++ x :: m) \/ (exists m, pre = l1 ++ m /\ l2 = m ++ x :: post).
Proof.
  induction l1 as [|a l1 IH]; intros l2 pre post E; [right; exists pre; split; [reflexivity|exact E]|]. destruct pre as [|b pre]; cbn [app] in E.
  - injection E as -> E. left. exists l1. reflexivity.
  - injection E as -> E. destruct (IH _ _ _ E) as [(m & ->)|(m & -> & ->)]; [left; exists m; reflexivity|right; exists m; split; reflexivity].
Qed.
Lemma split_without {A} (x : A) l1 l2 pre post : ~ In x l1 -> l1 ++ l2 = pre ++ x :: post -> exists m, pre = l1 ++ m /\ l2 = m ++ x :: post.
Proof. intros N E. apply split_app in E as [(m & ->)|K]; [|exact K]. exfalso. apply N, in_elt. Qed.
Lemma translate_split {A} (run : list R -> A) a : forall cs k pre post, translate run k cs = pre ++ Solve a :: post ->
  exists cs1 x cs2, cs = cs1 ++ GOptimize x :: cs2 /\ pre = translate run k cs1 /\ a = run x.
Proof.
  induction cs as [|c cs IH]; intros k pre post E; cbn [translate] in E; [destruct pre; discriminate|].
  assert (D : (exists x, c = GOptimize x) \/ ~ In (Solve a) (tr1 run k c)).
  { destruct c; try (right; cbn; intuition discriminate); try (right; cbn [tr1]; intros K; apply in_map_iff in K as (? & K & _); discriminate). left. eexists. reflexivity. }
  destruct D as [(x & ->)|D].
  - cbn [tr1 app made1] in E. destruct pre as [|b pre]; cbn [app] in E.
    + injection E as Ea _. exists [], x, cs. split; [reflexivity|]. split; [reflexivity|symmetry; exact Ea].
    + injection E as <- E. destruct (IH _ _ _ E) as (cs1 & y & cs2 & -> & -> & ->). exists (GOptimize x :: cs1), y, cs2. split; [reflexivity|]. split; reflexivity.
  - apply (split_without _ _ _ _ _ D) in E as (m & -> & E). destruct (IH _ _ _ E) as (cs1 & y & cs2 & -> & -> & ->). exists (c :: cs1), y, cs2. split; [reflexivity|]. split; reflexivity.
Qed.
Lemma solves_split n (x : list R) : forall l pre post, solves n l = pre ++ GOptimize x :: post ->
  exists l0 lo hi l2, l = l0 ++ (lo, hi, x) :: l2 /\ pre = solves n l0 ++ [GSetBounds (seq 0 n) lo hi].
Proof.
  induction l as [|[[lo hi] y] l IH]; intros pre post E; [destruct pre; discriminate|]. unfold solves in E. cbn [flat_map fst snd app] in E. fold (solves n l) in E.
  destruct pre as [|b pre]; cbn [app] in E; [discriminate|]. injection E as <- E. destruct pre as [|b pre]; cbn [app] in E.
  - injection E as -> _. exists [], lo, hi, l. split; reflexivity.
  - injection E as <- E. destruct (IH _ _ E) as (l0 & lo1 & hi1 & l2 & -> & ->). exists ((lo, hi, y) :: l0), lo1, hi1, l2. split; reflexivity.
Qed.
Lemma begin_split n (r : round R) x pre post : begin_round n r = pre ++ GOptimize x :: post ->
  exists l0 lo hi l2, r_solves r = l0 ++ (lo, hi, x) :: l2 /\ pre = to_solve n r l0 lo hi.
Proof.
  unfold begin_round. intros E.
  apply split_without in E as (m1 & -> & E); [|intros K; apply in_map_iff in K as (? & K & _); discriminate].
  apply split_without in E as (m2 & -> & E); [|cbn; intuition discriminate].
  apply split_without in E as (m3 & -> & E); [|intros K; apply in_map_iff in K as (? & K & _); discriminate].
  apply split_without in E as (m4 & -> & E); [|cbn; intuition discriminate].
  destruct (solves_split _ _ _ _ _ E) as (l0 & lo & hi & l2 & E1 & ->). exists l0, lo, hi, l2. split; [exact E1|reflexivity].
Qed.
(** the passes [l] split at one that is followed by anything *)
Lemma rounds_split n x : forall (l : list (round R)) k kc pre post, rounds_ok n k kc l -> rounds n l = pre ++ GOptimize x :: post ->
  exists done r l0 lo hi l2, pre = rounds n done ++ to_solve n r l0 lo hi /\ rounds_ok n k kc done /\ round_ok n (k + made_v done) (kc + made_c done) r /\
    r_solves r = l0 ++ (lo, hi, x) :: l2 /\ In r l.
Proof.
  induction l as [|r l IH]; intros k kc pre post F E; cbn [rounds] in E; [destruct pre; discriminate|]. destruct F as (F1 & F2 & F3).
  apply split_app in E as [(m & E)|(m & -> & E)].
  - destruct (begin_split n r x _ _ E) as (l0 & lo & hi & l2 & Es & ->). exists [], r, l0, lo, hi, l2. cbn [made_v made_c map list_sum fold_right rounds app].
    rewrite !Nat.add_0_r. split; [reflexivity|]. split; [exact I|]. split; [exact F1|]. split; [exact Es|left; reflexivity].
  - apply split_without in E as (m1 & -> & E).
    2:{ intros K. apply in_flat_map in K as (? & _ & K). cbn in K. intuition discriminate. }
    destruct (IH _ _ _ _ F3 E) as (done & r1 & l0 & lo & hi & l2 & -> & G1 & G2 & G3 & G4). exists (r :: done), r1, l0, lo, hi, l2.
    split; [cbn [rounds]; rewrite !app_assoc; reflexivity|]. split; [cbn [rounds_ok]; auto|]. split; [|split; [exact G3|right; exact G4]].
    cbn [made_v made_c map list_sum fold_right]. fold (made_v done) (made_c done). fold (list_sum (map (fun r => length (r_vars r)) done)) (list_sum (map (fun r => length (r_cnts r)) done)).
    fold (made_v done) (made_c done). rewrite !Nat.add_assoc. exact G2.
Qed.
Lemma setup_without (x : list R) vars cnts : ~ In (GOptimize x) (setup vars cnts).
Proof.
  unfold setup. intros K. apply in_app_or in K as [K|K]; [apply in_map_iff in K as (? & K & _); discriminate|]. destruct K as [K|K]; [discriminate|].
  apply in_map_iff in K as (? & K & _). discriminate.
Qed.
