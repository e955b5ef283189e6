(** * C128 and C129: what the statuses of optimize() mean for the problem that was built *)
From Coq Require Import List ZArith Bool Arith Lia Reals Lra ClassicalEpsilon.
From Verif Require Import Num NumFacts RSums Common ScoExprModel ScoExprProofs EigenModel EigenProofs EigenProps
  BackendModel BackendSpec BackendProofs BackendProps BpmpdProps OsqpReuseProps SolveModel SolveSpec SolveProofs.
Import ListNotations.
Local Open Scope R_scope.

(** the values getVarValues returns after CVX_SOLVED solve the problem that was built *)
Definition good_values (inf eps delta : R) (cs : list (call R)) (q : quad R) (b : backend R) (sol : list R) : Prop :=
  (exists X, has_values inf cs b sol X) /\ forall X, has_values inf cs b sol X -> solves_problem inf eps delta cs q X.

Theorem C128_osqp :
  forall (inf eps delta : R) (sz : nat) (warm : bool) (r : osqp_run R) (ps : list (pstep (osqp_run R))) (s : omodel R) (q : quad R),
    well_posed inf (calls_of ps) q -> osqp_honest inf eps delta r -> osqp_steps inf sz false warm empty_omodel ps = Ok s ->
    exists s' st, osqp_optimize inf sz false warm r s = Ok (s', st) /\
      (st = CvxSolved -> good_values inf eps delta (calls_of ps) q (om_b s') (om_sol s')) /\
      (st = CvxInfeasible -> unsolvable inf (calls_of ps) q) /\
      (osqp_able inf r -> (exists X, solves_problem inf 0 0 (calls_of ps) q X) -> st = CvxSolved).
Proof.
  intros inf eps delta sz warm r ps s q WP HR E. apply osqp_steps_b in E. cbn [empty_omodel om_b] in E.
  destruct (built inf _ q WP _ E) as [H Eo]. set (cs := calls_of ps) in *. set (b := om_b s) in *.
  destruct (osqp_view inf cs q b WP H Eo) as (P & g & A & l & u & EP & EA & Ln & V). cbv zeta in V.
  destruct (sim_update b _ _ H) as (_ & Ev & _).
  unfold osqp_optimize. fold b. set (solved := o_is_solved (om_status s)).
  assert (EC : exists o, create_or_update inf sz false warm solved (or_vec r) (or_mat r) (or_setup r) (update b) (om_o s) = Ok (o, or_setup r) /\
    (or_setup r = true -> o_ws o = Some {| w_P := P; w_q := g; w_A := A; w_l := l; w_u := u |})).
  { unfold create_or_update. rewrite EP. cbn [obind]. rewrite EA. cbn [obind o_ws o_A].
    rewrite !andb_false_r. cbn [andb]. destruct (o_ws (om_o s)), (or_setup r); eexists; (split; [reflexivity|]); intros K; try discriminate; reflexivity. }
  destruct EC as (o & EC & Eo'). rewrite EC. cbn [obind fst snd]. destruct (or_setup r) eqn:Es.
  - rewrite (Eo' eq_refl). set (w := {| w_P := P; w_q := g; w_A := A; w_l := l; w_u := u |}) in *.
    destruct (or_solve r w) as [[ok st'] x] eqn:ER. rewrite Ev. destruct ok.
    + destruct (HR w st' x ER) as (Lx & H1 & H2 & H3). cbn [w_P] in Lx, H1, H2, H3. subst w. cbn [w_P] in *. rewrite Ln in *.
      rewrite <- Lx, Nat.leb_refl, firstn_all. do 2 eexists. split; [reflexivity|]. cbn [om_b om_sol]. split; [|split].
      * intros K. apply (read_back inf cs q b _ _ eps delta x H V Lx). apply H1. destruct st'; cbn in K; try discriminate; [left|right]; reflexivity.
      * intros K. destruct (o_is_solved st') eqn:K1; [discriminate|]. destruct (o_is_infeasible st') eqn:K2; [|discriminate].
        destruct st'; try discriminate.
        -- apply empty_unsolvable, (view_no_point inf cs q _ _ V), H2. left; reflexivity.
        -- apply empty_unsolvable, (view_no_point inf cs q _ _ V), H2. right; reflexivity.
        -- apply (view_no_answer inf cs q _ _ V), H3. left; reflexivity.
        -- apply (view_no_answer inf cs q _ _ V), H3. right; reflexivity.
      * intros [_ Ab] HX. apply (view_solvable inf cs q _ _ V) in HX. rewrite <- Ln in HX. apply (Ab {| w_P := P; w_q := g; w_A := A; w_l := l; w_u := u |}) in HX as (st1 & x1 & E1 & K1). rewrite ER in E1. injection E1 as <- <-.
        destruct K1 as [-> | ->]; reflexivity.
    + do 2 eexists. split; [reflexivity|]. split; [discriminate|]. split; [discriminate|]. intros [_ Ab] HX. apply (view_solvable inf cs q _ _ V) in HX.
      rewrite <- Ln in HX. apply (Ab w) in HX as (st1 & x1 & E1 & K1). rewrite ER in E1. discriminate.
  - do 2 eexists. split; [reflexivity|]. split; [discriminate|]. split; [discriminate|]. intros [K _]. congruence.
Qed.
Print Assumptions C128_osqp.

Theorem C128_qpoases :
  forall (Q : sqproblem R) (inf eps delta : R) (ps : list (pstep unit)) (s : qmodel Q) (q : quad R),
    well_posed inf (calls_of ps) q -> qpoases_honest inf eps delta Q -> qpoases_steps Q inf (empty_qmodel Q) ps = Ok s ->
    exists s' st, qpoases_optimize Q inf s = Ok (Returns (s', st)) /\
      (st = CvxSolved -> good_values inf eps delta (calls_of ps) q (qm_b Q s') (qm_sol Q s')) /\
      (st = CvxInfeasible -> forall X, ~ fits_problem inf 0 (calls_of ps) X) /\
      (qpoases_able inf Q ->
       (forall p, qm_p Q s = Some p -> sq_ready Q p = false \/ sq_nv Q p <> length (live_v (vfacts inf (calls_of ps))) \/ sq_nc Q p <> length (live_c (cfacts (calls_of ps)))) ->
       (exists X, solves_problem inf 0 0 (calls_of ps) q X) -> st = CvxSolved).
Proof.
  intros Q inf eps delta ps s q WP [Hnew Hhot Hinit] E. apply qpoases_steps_b in E. cbn [empty_qmodel qm_b] in E.
  destruct (built inf _ q WP _ E) as [H Eo]. set (cs := calls_of ps) in *. set (b := qm_b Q s) in *.
  destruct (qpoases_view inf cs q b WP H Eo) as (d & ED & Ln & Lm & V).
  destruct (sim_update b _ _ H) as (_ & Ev & Ec).
  unfold qpoases_optimize. fold b. rewrite Ev, Ec, ED. cbn [obind].
  set (n := length (live_v (vfacts inf cs))) in *. set (m := length (live_c (cfacts cs))) in *.
  set (p0 := update_solver Q n m (qm_p Q s)).
  assert (Sz : sq_nv Q p0 = n /\ sq_nc Q p0 = m).
  { unfold p0, update_solver. destruct (qm_p Q s) as [p|]; [|split; apply Hnew]. destruct (Nat.eqb_spec n (sq_nv Q p)); cbn [negb orb]; [|split; apply Hnew].
    destruct (Nat.eqb_spec m (sq_nc Q p)); cbn [negb]; [|split; apply Hnew]. auto. }
  assert (NewSz : sq_nv Q (update_solver Q n m None) = n /\ sq_nc Q (update_solver Q n m None) = m) by (split; apply Hnew).
  destruct (if sq_ready Q p0 then sq_hotstart Q p0 d 255 else (p0, QOther, 255%nat)) as [[p1 v1] k1] eqn:E1.
  assert (Fresh : sq_ready Q p0 = false -> (p1, v1, k1) = (p0, QOther, 255%nat)) by (intros K; rewrite K in E1; symmetry; exact E1).
  assert (First : v1 = QSuccess -> length (sq_primal Q p1) = n /\ answer n (qpo_fit inf d) (qpo_value d) eps delta (sq_primal Q p1)).
  { intros ->. destruct (sq_ready Q p0); [|discriminate]. destruct (Hhot _ _ _ _ _ _ E1) as [K1 K2]; try (rewrite ?Ln, ?Lm; apply Sz); [reflexivity|].
    rewrite Ln in K1, K2. split; assumption. }
  destruct (sq_init Q (update_solver Q n m None) d k1) as [[p2 v2] k2] eqn:E2.
  specialize (Hinit _ _ _ _ _ _ E2). rewrite Ln, Lm in Hinit. specialize (Hinit (proj1 NewSz) (proj2 NewSz)).
  assert (Ready : (forall p, qm_p Q s = Some p -> sq_ready Q p = false \/ sq_nv Q p <> n \/ sq_nc Q p <> m) -> sq_ready Q p0 = false).
  { intros K. unfold p0, update_solver. destruct (qm_p Q s) as [p|]; [|apply Hnew]. specialize (K p eq_refl).
    destruct (Nat.eqb_spec n (sq_nv Q p)); cbn [negb orb]; [|apply Hnew]. destruct (Nat.eqb_spec m (sq_nc Q p)); cbn [negb]; [|apply Hnew]. intuition congruence. }
  assert (Second : v1 <> QSuccess ->
    exists s' st, match v2 with
        | QSuccess => Ok (Returns ({| qm_b := update b; qm_p := Some p2; qm_sol := sq_primal Q p2 |}, CvxSolved))
        | QInitInfeasible => Ok (Returns ({| qm_b := update b; qm_p := Some p2; qm_sol := qm_sol Q s |}, CvxInfeasible))
        | QOther => Ok (Returns ({| qm_b := update b; qm_p := Some p2; qm_sol := qm_sol Q s |}, CvxFailed))
        end = Ok (Returns (s', st)) /\
      (st = CvxSolved -> good_values inf eps delta cs q (qm_b Q s') (qm_sol Q s')) /\
      (st = CvxInfeasible -> forall X, ~ fits_problem inf 0 cs X) /\
      (qpoases_able inf Q -> (forall p, qm_p Q s = Some p -> sq_ready Q p = false \/ sq_nv Q p <> n \/ sq_nc Q p <> m) ->
       (exists X, solves_problem inf 0 0 cs q X) -> st = CvxSolved)).
  { intros N1.
    assert (Ab : qpoases_able inf Q -> (forall p, qm_p Q s = Some p -> sq_ready Q p = false \/ sq_nv Q p <> n \/ sq_nc Q p <> m) ->
      (exists X, solves_problem inf 0 0 cs q X) -> v2 = QSuccess).
    { intros Ab K HX. specialize (Fresh (Ready K)). injection Fresh as _ _ ->. apply (view_solvable inf cs q _ _ V) in HX. fold n in HX. rewrite <- Ln in HX.
      destruct (Ab (update_solver Q n m None) d 255%nat) as (p' & k' & E'); auto; [rewrite Ln; apply NewSz|rewrite Lm; apply NewSz|]. rewrite E2 in E'. injection E' as _ -> _. reflexivity. }
    destruct v2; (do 2 eexists; split; [reflexivity|]); cbn [qm_b qm_sol]; (split; [|split]); try discriminate; intros;
      try reflexivity; try (exfalso; intuition congruence).
    - destruct Hinit as [K1 K2]. exact (read_back inf cs q b _ _ eps delta _ H V K1 K2).
    - apply (view_no_point inf cs q _ _ V). exact Hinit. }
  destruct v1; [|apply Second; discriminate..].
  do 2 eexists. split; [reflexivity|]. cbn [qm_b qm_sol]. split; [|split; [discriminate|reflexivity]].
  intros _. destruct (First eq_refl) as [K1 K2]. exact (read_back inf cs q b _ _ eps delta _ H V K1 K2).
Qed.
Print Assumptions C128_qpoases.

Theorem C128_bpmpd :
  forall (inf eps delta : R) (solve : bpm R -> list R * Z) (ps : list (pstep (bpm R -> list R * Z))) (s : bmodel R) (q : quad R),
    well_posed inf (calls_of ps) q -> bpmpd_honest inf eps delta solve -> bpmpd_steps inf empty_bmodel ps = Ok s ->
    exists s' st, bpmpd_optimize inf solve s = Ok (s', st) /\
      (st = CvxSolved -> good_values inf eps delta (calls_of ps) q (bm_b s') (bm_sol s')) /\
      (st = CvxInfeasible -> unsolvable inf (calls_of ps) q) /\
      (bpmpd_able inf solve -> (exists X, solves_problem inf 0 0 (calls_of ps) q X) -> st = CvxSolved).
Proof.
  intros inf eps delta f ps s q WP HR E. apply bpmpd_steps_b in E. cbn [empty_bmodel bm_b] in E.
  destruct (built inf _ q WP _ E) as [H Eo]. set (cs := calls_of ps) in *. set (b := bm_b s) in *.
  destruct (bpmpd_view inf cs q b WP E) as (d & ED & Ln & V). destruct (sim_update b _ _ H) as (_ & Ev & _).
  unfold bpmpd_optimize. fold b. rewrite ED, Ev. cbn [obind]. destruct (f d) as [x code] eqn:ER.
  destruct (HR d x code ER) as (Lx & H2 & H3 & H4). cbv zeta in Lx, H2, H3, H4. rewrite Ln in *. rewrite (proj2 (Nat.leb_le _ _) Lx).
  do 2 eexists. split; [reflexivity|]. cbn [bm_b bm_sol]. split; [|split].
  - intros K. destruct (Z.eqb_spec code 2) as [->|]; [|destruct (_ || _)%bool in K; discriminate].
    apply (read_back inf cs q b _ _ eps delta _ H V); [rewrite firstn_length; lia|auto].
  - intros K. destruct (Z.eqb_spec code 2) as [->|]; [discriminate|]. destruct (Z.eqb_spec code 3) as [->|]; cbn [orb] in K.
    + apply (view_no_answer inf cs q _ _ V), H3. reflexivity.
    + destruct (Z.eqb_spec code 4) as [->|]; cbn [orb] in K; [|discriminate]. apply empty_unsolvable, (view_no_point inf cs q _ _ V), H4. reflexivity.
  - intros Ab HX. apply (view_solvable inf cs q _ _ V) in HX. rewrite <- Ln in HX. apply Ab in HX. rewrite ER in HX. cbn [snd] in HX. rewrite HX. reflexivity.
Qed.
Print Assumptions C128_bpmpd.

(** ** Examples: a solver for one variable that checks a guess *)
Inductive verdict := VOptimal | VUnbounded | VUnknown.
Definition rle (a b : R) : bool := if Rle_dec a b then true else false.
Definition req (a b : R) : bool := (rle a b && rle b a)%bool.
Lemma rle_true a b : rle a b = true <-> a <= b.
Proof. unfold rle. destruct (Rle_dec a b); split; auto; discriminate. Qed.
Lemma req_true a b : req a b = true <-> a = b.
Proof. unfold req. rewrite andb_true_iff, !rle_true. lra. Qed.
Lemma req_false a b : req a b = false <-> a <> b.
Proof. rewrite <- req_true. destruct (req a b); intuition congruence. Qed.
(** of p/2 x^2 + g x, with [fits] whether [x] satisfies the constraints and [free] whether there are none *)
Definition one (n : nat) (p g : R) (fits free : bool) (x : R) : verdict :=
  if (n =? 1)%nat then
    if (free && req p 0 && negb (req g 0))%bool then VUnbounded
    else if (rle 0 p && req (p * x + g) 0 && fits)%bool then VOptimal else VUnknown
  else VUnknown.
Definition nearb (inf l u v : R) : bool := ((rle l (- inf) || rle l v) && (rle inf u || rle v u))%bool.
Definition freeb (inf l u : R) : bool := (rle l (- inf) && rle inf u)%bool.
Definition upto (n : nat) (f : nat -> bool) : bool := forallb f (seq 0 n).
Lemma upto_true n f : upto n f = true <-> forall i, (i < n)%nat -> f i = true.
Proof. unfold upto. rewrite forallb_forall. split; intros H i Hi; apply H; [apply in_seq; lia|apply in_seq in Hi; lia]. Qed.
Lemma nearb_true inf l u v : nearb inf l u v = true <-> near inf 0 l u v.
Proof. unfold nearb, near. rewrite andb_true_iff, !orb_true_iff, !rle_true, Rminus_0_r, Rplus_0_r. reflexivity. Qed.
Lemma freeb_near inf l u eps v : freeb inf l u = true -> near inf eps l u v.
Proof. unfold freeb, near. rewrite andb_true_iff, !rle_true. tauto. Qed.

Lemma one_sound n p g fits free x (fit : R -> list R -> Prop) value :
  (n = 1%nat -> forall t, value [t] = / 2 * (p * t * t) + g * t) -> (fits = true -> fit 0 [x]) -> (free = true -> forall t, fit 0 [t]) ->
  match one n p g fits free x with
  | VOptimal => n = 1%nat /\ answer n fit value 0 0 [x]
  | VUnbounded => n = 1%nat /\ no_answer n fit value
  | VUnknown => True
  end.
Proof.
  intros V F U. unfold one. destruct (Nat.eqb_spec n 1) as [->|]; [|exact I]. specialize (V eq_refl).
  destruct (free && req p 0 && negb (req g 0))%bool eqn:E1.
  - apply andb_true_iff in E1 as [E1 E3]. apply andb_true_iff in E1 as [E1 E2]. apply req_true in E2. apply negb_true_iff, req_false in E3. split; [reflexivity|].
    intros y _ _ low. exists [(low - 1) / g]. split; [reflexivity|]. split; [apply U, E1|]. rewrite V, E2.
    replace (/ 2 * (0 * ((low - 1) / g) * ((low - 1) / g)) + g * ((low - 1) / g)) with (low - 1) by (field; exact E3). lra.
  - destruct (rle 0 p && req (p * x + g) 0 && fits)%bool eqn:E2; [|exact I]. apply andb_true_iff in E2 as [E2 E4]. apply andb_true_iff in E2 as [E2 E3].
    apply rle_true in E2. apply req_true in E3. split; [reflexivity|]. split; [apply F, E4|]. intros [|t [|? ?]] L _; try discriminate. rewrite !V.
    replace g with (- (p * x)) by lra. assert (0 <= p * ((t - x) * (t - x))) by (apply Rmult_le_pos; [exact E2|apply Rle_0_sqr]). nra.
Qed.
Lemma quadratic1 at_ q t : quadratic 1 at_ q [t] = / 2 * (at_ 0%nat 0%nat * t * t) + nth 0 q 0 * t.
Proof. unfold quadratic, bigsum. cbn [seq]. rewrite !rsum_cons, !rsum_nil. cbn [nth]. lra. Qed.

(** *** OSQP *)
Definition osqp_one (inf x : R) (w : wspace R) : verdict :=
  one (m_cols (w_P w)) (mirrored (csc_get (m_csc (w_P w))) 0 0) (nth 0 (w_q w) 0)
    (upto (m_rows (w_A w)) (fun r => nearb inf (nth r (w_l w) 0) (nth r (w_u w) 0) (activity (w_A w) [x] r)))
    (upto (m_rows (w_A w)) (fun r => freeb inf (nth r (w_l w) 0) (nth r (w_u w) 0))) x.
Definition osqp_guess (inf x : R) : osqp_run R :=
  {| or_vec := true; or_mat := true; or_setup := true;
     or_solve := fun w => match osqp_one inf x w with
                          | VOptimal => (true, OSolved, [x]) | VUnbounded => (true, ODualInfeasible, [0]) | VUnknown => (true, OMaxIter, repeat 0 (m_cols (w_P w))) end |}.
Lemma osqp_guess_honest inf x : osqp_honest inf 0 0 (osqp_guess inf x).
Proof.
  intros w st y E. cbv zeta. cbn [osqp_guess or_solve] in E.
  pose proof (one_sound (m_cols (w_P w)) (mirrored (csc_get (m_csc (w_P w))) 0 0) (nth 0 (w_q w) 0)
    (upto (m_rows (w_A w)) (fun r => nearb inf (nth r (w_l w) 0) (nth r (w_u w) 0) (activity (w_A w) [x] r)))
    (upto (m_rows (w_A w)) (fun r => freeb inf (nth r (w_l w) 0) (nth r (w_u w) 0))) x (osqp_fit inf w) (osqp_value w)) as S1.
  fold (osqp_one inf x w) in S1.
  match type of S1 with ?a -> ?b -> ?c -> _ => assert a as A1; [|assert b as A2; [|assert c as A3; [|specialize (S1 A1 A2 A3)]]] end.
  - intros N t. unfold osqp_value. rewrite N. apply quadratic1.
  - intros U r Hr. apply nearb_true. rewrite upto_true in U. apply U, Hr.
  - intros U t r Hr. apply freeb_near. rewrite upto_true in U. apply U, Hr.
  - destruct (osqp_one inf x w); injection E as <- <-.
    + destruct S1 as [-> S1]. split; [reflexivity|]. split; [intros _; exact S1|]. split; intros [K|K]; discriminate.
    + destruct S1 as [-> S1]. split; [reflexivity|]. split; [intros [K|K]; discriminate|]. split; [intros [K|K]; discriminate|]. intros _. exact S1.
    + split; [apply repeat_length|]. split; [intros [K|K]; discriminate|]. split; intros [K|K]; discriminate.
Qed.

(** x^2 - 2 x with 2 x <= 3 and 0 <= x <= 5, solved at 1; another variable was created before and removed *)
Definition parabola : quad R := {| q_aff := {| a_const := 0; a_coeffs := [-2]; a_vars := [1%nat] |}; q_coeffs := [1]; q_vars1 := [1%nat]; q_vars2 := [1%nat] |}.
Definition parabola_calls : list (call R) :=
  [AddVar; AddVar; AddCnt true {| a_const := -3; a_coeffs := [2]; a_vars := [1%nat] |}; SetBounds 1 0 5; RemoveVar 0; Update; SetQuad parabola].
Lemma parabola_posed : well_posed 1000 parabola_calls parabola.
Proof.
  split; [lra|]. split; [cbn; repeat split; lia|]. split; [|split; [reflexivity|]].
  - intros id Hin. cbn in Hin. destruct Hin as [<-|[]]. cbn. split; [reflexivity|]. split; [|lra]. constructor; [left; reflexivity|constructor].
  - split; [split; [reflexivity|split; reflexivity]|]. split; [|split]; cbn; repeat constructor.
Qed.
Lemma parabola_fits : fits_problem 1000 0 parabola_calls [0; 1].
Proof.
  split; intros id Hin; cbn in Hin; destruct Hin as [<-|[]].
  - unfold holds_near. cbn. rnum. lra.
  - unfold near. cbn. lra.
Qed.
(** the checker recognises the optimum *)
Lemma parabola_one p g fits free fit value : view 1000 parabola_calls parabola fit value -> (forall t, value [t] = / 2 * (p * t * t) + g * t) ->
  (fit 0 [1] -> fits = true) -> one 1 p g fits free 1 = VOptimal.
Proof.
  intros [F (k & V)] E K. specialize (F 0 [0; 1]). change (pick _ [0; 1]) with [1] in F. rewrite K by (apply F, parabola_fits).
  assert (Q : forall t, / 2 * (p * t * t) + g * t = t * t - 2 * t - k).
  { intros t. rewrite <- E. specialize (V [0; t]). change (pick _ [0; t]) with [t] in V. rewrite V. f_equal. cbv -[Rplus Rmult Rminus Ropp IZR]. lra. }
  pose proof (Q 0). pose proof (Q 1). pose proof (Q (-1)). assert (p = 2) as -> by lra. assert (g = -2) as -> by lra.
  unfold one. cbn [Nat.eqb]. rewrite (proj2 (req_false 2 0)) by lra. rewrite andb_false_r. cbn [andb].
  rewrite (proj2 (rle_true 0 2)) by lra. rewrite (proj2 (req_true _ _)) by lra. reflexivity.
Qed.
Example C128_osqp_example : exists s s',
  well_posed 1000 parabola_calls parabola /\ osqp_honest 1000 0 0 (osqp_guess 1000 1) /\
  osqp_steps 1000 8 false false empty_omodel (map Call parabola_calls) = Ok s /\
  osqp_optimize 1000 8 false false (osqp_guess 1000 1) s = Ok (s', CvxSolved) /\ om_sol s' = [1].
Proof.
  destruct (sim_history 1000 parabola_calls) as (b & Eb & _); [apply parabola_posed|]. cbn in Eb. injection Eb as Eb.
  destruct (built 1000 _ _ parabola_posed b) as [H Eo]; [rewrite <- Eb; reflexivity|].
  destruct (osqp_view 1000 _ _ b parabola_posed H Eo) as (P & g & A & l & u & EP & EA & Ln & V). cbv zeta in V.
  exists {| om_b := b; om_o := om_o empty_omodel; om_status := OUnsolved; om_sol := [] |}. eexists.
  split; [apply parabola_posed|]. split; [apply osqp_guess_honest|]. split; [rewrite <- Eb; reflexivity|].
  unfold osqp_optimize, create_or_update. cbn [om_b om_o om_status om_sol empty_omodel]. rewrite EP. cbn [obind]. rewrite EA. cbn [obind o_ws o_A osqp_guess or_setup fst snd or_solve].
  destruct (sim_update b _ _ H) as (_ & Ev & _). rewrite Ev.
  replace (osqp_one 1000 1 {| w_P := P; w_q := g; w_A := A; w_l := l; w_u := u |}) with VOptimal.
  - cbn. split; reflexivity.
  - symmetry. unfold osqp_one. cbn [w_P w_q w_A w_l w_u]. rewrite Ln. apply (parabola_one _ _ _ _ _ _ V).
    + intros t. unfold osqp_value. cbn [w_P w_q]. rewrite Ln. apply quadratic1.
    + intros F. apply upto_true. intros r Hr. apply nearb_true, F, Hr.
Qed.

(** *** qpOASES *)
Definition qpo_one (inf x : R) (d : qpo R) : verdict :=
  one (m_cols (p_H d)) (csc_get (m_csc (p_H d)) 0 0) (nth 0 (p_g d) 0)
    (upto (length (p_lb d)) (fun c => nearb inf (nth c (p_lb d) 0) (nth c (p_ub d) 0) (nth c [x] 0)) &&
     upto (m_rows (p_A d)) (fun r => nearb inf (nth r (p_lbA d) 0) (nth r (p_ubA d) 0) (activity (p_A d) [x] r)))%bool false x.
(** sizes, initialised and point; [warm] says whether hotstart works.  One recalculation is needed. *)
Definition qpo_guess (inf x : R) (warm : bool) : sqproblem R :=
  {| sq := nat * nat * bool * list R; sq_new := fun n m => (n, m, false, []); sq_nv := fun p => fst (fst (fst p)); sq_nc := fun p => snd (fst (fst p));
     sq_ready := fun p => snd (fst p); sq_primal := snd;
     sq_hotstart := fun p d k => match qpo_one inf x d with
                                 | VOptimal => if (warm && (1 <=? k)%nat)%bool then (fst p, [x], QSuccess, 1%nat) else (p, QOther, 0%nat)
                                 | _ => (p, QOther, 0%nat) end;
     sq_init := fun p d k => match qpo_one inf x d with
                             | VOptimal => if (1 <=? k)%nat then (fst (fst p), true, [x], QSuccess, 1%nat) else (p, QOther, 0%nat)
                             | _ => (p, QOther, 0%nat) end |}.
Lemma qpo_one_sound inf x d : qpo_one inf x d = VOptimal -> m_cols (p_H d) = 1%nat /\ answer (m_cols (p_H d)) (qpo_fit inf d) (qpo_value d) 0 0 [x].
Proof.
  pose proof (one_sound (m_cols (p_H d)) (csc_get (m_csc (p_H d)) 0 0) (nth 0 (p_g d) 0)
    (upto (length (p_lb d)) (fun c => nearb inf (nth c (p_lb d) 0) (nth c (p_ub d) 0) (nth c [x] 0)) &&
     upto (m_rows (p_A d)) (fun r => nearb inf (nth r (p_lbA d) 0) (nth r (p_ubA d) 0) (activity (p_A d) [x] r)))%bool false x (qpo_fit inf d) (qpo_value d)) as S1.
  fold (qpo_one inf x d) in S1. intros E. rewrite E in S1. apply S1.
  - intros N t. unfold qpo_value. rewrite N. apply quadratic1.
  - intros U. apply andb_true_iff in U as [U1 U2]. rewrite upto_true in U1, U2. split; intros i Hi; apply nearb_true; [apply U1, Hi|apply U2, Hi].
  - discriminate.
Qed.
Lemma qpo_guess_honest inf x warm : qpoases_honest inf 0 0 (qpo_guess inf x warm).
Proof.
  constructor.
  - intros n m. split; [reflexivity|split; reflexivity].
  - intros p d k p' v k' E _ _ ->. cbn [qpo_guess sq_hotstart] in E. destruct (qpo_one inf x d) eqn:E1; try discriminate.
    destruct (warm && _)%bool; [|discriminate]. injection E as <- <-. cbn [qpo_guess sq_primal snd]. destruct (qpo_one_sound inf x d E1) as [N S1]. rewrite N in *. split; [reflexivity|exact S1].
  - intros p d k p' v k' E _ _. cbn [qpo_guess sq_init] in E. destruct (qpo_one inf x d) eqn:E1; [|injection E as <- <- <-; exact I..].
    destruct (1 <=? k)%nat; injection E as <- <- <-; [|exact I]. cbn [qpo_guess sq_primal snd]. destruct (qpo_one_sound inf x d E1) as [N S1]. rewrite N in *. split; [reflexivity|exact S1].
Qed.
Lemma parabola_qpoases d : view 1000 parabola_calls parabola (qpo_fit 1000 d) (qpo_value d) -> m_cols (p_H d) = 1%nat -> qpo_one 1000 1 d = VOptimal.
Proof.
  intros V N. unfold qpo_one. rewrite N. apply (parabola_one _ _ _ _ _ _ V).
  - intros t. unfold qpo_value. rewrite N. apply quadratic1.
  - intros [F1 F2]. apply andb_true_iff. split; apply upto_true; intros i Hi; apply nearb_true; [apply F1, Hi|apply F2, Hi].
Qed.
(** the second solve is a hotstart *)
Example C128_qpoases_example : exists s s' s'',
  qpoases_honest 1000 0 0 (qpo_guess 1000 1 true) /\
  qpoases_steps (qpo_guess 1000 1 true) 1000 (empty_qmodel _) (map Call parabola_calls) = Ok s /\
  qpoases_optimize (qpo_guess 1000 1 true) 1000 s = Ok (Returns (s', CvxSolved)) /\ qm_sol _ s' = [1] /\
  qpoases_optimize (qpo_guess 1000 1 true) 1000 s' = Ok (Returns (s'', CvxSolved)) /\ qm_sol _ s'' = [1].
Proof.
  destruct (sim_history 1000 parabola_calls) as (b & Eb & _); [apply parabola_posed|]. cbn in Eb. injection Eb as Eb.
  destruct (built 1000 _ _ parabola_posed b) as [H Eo]; [rewrite <- Eb; reflexivity|].
  destruct (sim_update b _ _ H) as (H2 & Ev & Ec). destruct (sim_update _ _ _ H2) as (_ & Ev2 & Ec2).
  destruct (qpoases_view 1000 _ _ b parabola_posed H Eo) as (d & ED & Ln & Lm & V).
  destruct (qpoases_view 1000 _ _ (update b) parabola_posed H2) as (d2 & ED2 & Ln2 & Lm2 & V2); [rewrite update_obj; exact Eo|].
  exists {| qm_b := b; qm_p := None; qm_sol := [] |}. do 2 eexists. split; [apply qpo_guess_honest|]. split; [rewrite <- Eb; reflexivity|]. split; [|split; [|split]].
  - unfold qpoases_optimize. cbn [qm_b qm_p qm_sol]. rewrite Ev, Ec, ED. cbn [obind update_solver qpo_guess sq_new sq_ready fst snd sq_init].
    rewrite (parabola_qpoases d V Ln). cbn [Nat.leb sq_primal snd]. reflexivity.
  - reflexivity.
  - unfold qpoases_optimize. cbn [qm_b qm_p qm_sol]. rewrite Ev2, Ec2, ED2. cbn. rewrite (parabola_qpoases d2 V2 Ln2). reflexivity.
  - reflexivity.
Qed.

(** *** BPMPD *)
Definition bpm_one (inf x : R) (d : bpm R) : verdict :=
  one (length (i_obj d)) (lower (bget (i_q d)) 0 0) (nth 0 (i_obj d) 0)
    (upto (length (i_obj d)) (fun c => nearb inf (nth c (i_lo d) 0) (nth c (i_hi d) 0) (nth c [x] 0)) &&
     upto (length (i_rhs d)) (fun r => nearb inf (nth (length (i_obj d) + r) (i_lo d) 0) (nth (length (i_obj d) + r) (i_hi d) 0) (brow d [x] r)))%bool
    (upto (length (i_obj d)) (fun c => freeb inf (nth c (i_lo d) 0) (nth c (i_hi d) 0)) && (length (i_rhs d) =? 0)%nat)%bool x.
Definition bpm_guess (inf x : R) (d : bpm R) : list R * Z :=
  match bpm_one inf x d with
  | VOptimal => (x :: repeat 0 (length (i_rhs d)), 2%Z)
  | VUnbounded => (repeat 0 (length (i_obj d) + length (i_rhs d)), 3%Z)
  | VUnknown => (repeat 0 (length (i_obj d) + length (i_rhs d)), 1%Z)
  end.
Lemma bpm_guess_honest inf x : bpmpd_honest inf 0 0 (bpm_guess inf x).
Proof.
  intros d y code E. cbv zeta. unfold bpm_guess in E.
  pose proof (one_sound (length (i_obj d)) (lower (bget (i_q d)) 0 0) (nth 0 (i_obj d) 0)
    (upto (length (i_obj d)) (fun c => nearb inf (nth c (i_lo d) 0) (nth c (i_hi d) 0) (nth c [x] 0)) &&
     upto (length (i_rhs d)) (fun r => nearb inf (nth (length (i_obj d) + r) (i_lo d) 0) (nth (length (i_obj d) + r) (i_hi d) 0) (brow d [x] r)))%bool
    (upto (length (i_obj d)) (fun c => freeb inf (nth c (i_lo d) 0) (nth c (i_hi d) 0)) && (length (i_rhs d) =? 0)%nat)%bool x (bpm_fit inf d) (bpm_value d)) as S1.
  fold (bpm_one inf x d) in S1.
  match type of S1 with ?a -> ?b -> ?c -> _ => assert a as A1; [|assert b as A2; [|assert c as A3; [|specialize (S1 A1 A2 A3)]]] end.
  - intros N t. unfold bpm_value. rewrite N. apply quadratic1.
  - intros U. apply andb_true_iff in U as [U1 U2]. rewrite upto_true in U1, U2. split; intros i Hi; apply nearb_true; [apply U1, Hi|apply U2, Hi].
  - intros U t. apply andb_true_iff in U as [U1 U2]. rewrite upto_true in U1. apply Nat.eqb_eq in U2. split; intros i Hi; [apply freeb_near, U1, Hi|lia].
  - destruct (bpm_one inf x d); injection E as <- <-.
    + destruct S1 as [N S1]. rewrite N in *. split; [cbn; lia|]. split; [intros _; exact S1|]. split; intros K; discriminate.
    + destruct S1 as [N S1]. rewrite N in *. split; [rewrite repeat_length; lia|]. split; [discriminate|]. split; [intros _; exact S1|discriminate].
    + split; [rewrite repeat_length; lia|]. split; [discriminate|]. split; intros K; discriminate.
Qed.
Example C128_bpmpd_example : exists s s',
  bpmpd_honest 1000 0 0 (bpm_guess 1000 1) /\ bpmpd_steps 1000 empty_bmodel (map Call parabola_calls) = Ok s /\
  bpmpd_optimize 1000 (bpm_guess 1000 1) s = Ok (s', CvxSolved) /\ bm_sol s' = [1].
Proof.
  destruct (sim_history 1000 parabola_calls) as (b & Eb & _); [apply parabola_posed|]. assert (Eb' := Eb). cbn in Eb. injection Eb as Eb.
  destruct (bpmpd_view 1000 _ _ b parabola_posed Eb') as (d & ED & Ln & V). destruct (built 1000 _ _ parabola_posed b Eb') as [H _]. destruct (sim_update b _ _ H) as (_ & Ev & _).
  exists {| bm_b := b; bm_sol := [] |}. eexists. split; [apply bpm_guess_honest|]. split; [rewrite <- Eb; reflexivity|].
  unfold bpmpd_optimize. cbn [bm_b bm_sol]. rewrite ED, Ev. cbn [obind]. unfold bpm_guess.
  replace (bpm_one 1000 1 d) with VOptimal; [cbn; split; reflexivity|]. symmetry. unfold bpm_one. rewrite Ln. apply (parabola_one _ _ _ _ _ _ V).
  - intros t. unfold bpm_value. rewrite Ln. apply quadratic1.
  - intros [F1 F2]. rewrite Ln in F1, F2. apply andb_true_iff. split; apply upto_true; intros i Hi; apply nearb_true; [apply F1, Hi|apply F2, Hi].
Qed.

(** *** solvers that find an answer whenever there is one exist (by choice) *)
Lemma oracle n fit value : {x | length x = n /\ answer n fit value 0 0 x} + {~ solvable n fit value}.
Proof.
  destruct (excluded_middle_informative (solvable n fit value)) as [H|H]; [left|right; exact H].
  apply constructive_indefinite_description. destruct H as (y & L & A). exists y. split; assumption.
Qed.
Example C128_able : forall inf : R, exists r Q f, osqp_honest inf 0 0 r /\ osqp_able inf r /\ qpoases_honest inf 0 0 Q /\ qpoases_able inf Q /\ bpmpd_honest inf 0 0 f /\ bpmpd_able inf f /\ (forall p, sq_ready Q p = false).
Proof.
  intros inf.
  exists {| or_vec := true; or_mat := true; or_setup := true; or_solve := fun w => match oracle (m_cols (w_P w)) (osqp_fit inf w) (osqp_value w) with
            | inleft x => (true, OSolved, proj1_sig x) | inright _ => (true, OMaxIter, repeat 0 (m_cols (w_P w))) end |}.
  exists {| sq := nat * nat * list R; sq_new := fun n m => (n, m, []); sq_nv := fun p => fst (fst p); sq_nc := fun p => snd (fst p); sq_ready := fun _ => false; sq_primal := snd;
            sq_hotstart := fun p d k => (p, QOther, 0%nat);
            sq_init := fun p d k => match oracle (m_cols (p_H d)) (qpo_fit inf d) (qpo_value d) with
            | inleft x => (fst p, proj1_sig x, QSuccess, 1%nat) | inright _ => (p, QOther, 0%nat) end |}.
  exists (fun d => match oracle (length (i_obj d)) (bpm_fit inf d) (bpm_value d) with inleft x => (proj1_sig x, 2%Z) | inright _ => (repeat 0 (length (i_obj d)), 1%Z) end).
  split; [|split; [|split; [|split; [|split; [|split]]]]].
  - intros w st x E. cbn [or_solve] in E. cbv zeta. destruct (oracle _ _ _) as [[y [L A]]|N]; injection E as <- <-; cbn [proj1_sig].
    + split; [exact L|]. split; [intros _; exact A|]. split; intros [K|K]; discriminate.
    + split; [apply repeat_length|]. split; [intros [K|K]; discriminate|]. split; intros [K|K]; discriminate.
  - split; [reflexivity|]. intros w H. cbn [or_solve]. destruct (oracle _ _ _) as [y|N]; [|contradiction]. do 2 eexists. split; [reflexivity|left; reflexivity].
  - constructor; cbn; [intros; split; [reflexivity|split; reflexivity]|intros; congruence|].
    intros p d k p' v k' E _ _. destruct (oracle _ _ _) as [[y [L A]]|N]; injection E as <- <- <-; cbn; [split; assumption|exact I].
  - intros p d k _ _ H _. cbn. destruct (oracle _ _ _) as [y|N]; [|contradiction]. do 2 eexists. reflexivity.
  - intros d x code E. cbv zeta. destruct (oracle _ _ _) as [[y [L A]]|N]; injection E as <- <-; cbn [proj1_sig].
    + split; [lia|]. split; [intros _; rewrite firstn_all2 by lia; exact A|]. split; discriminate.
    + split; [rewrite repeat_length; lia|]. split; [discriminate|]. split; discriminate.
  - intros d H. destruct (oracle _ _ _) as [y|N]; [reflexivity|contradiction].
  - reflexivity.
Qed.

(** ** C129 *)
(** If the objective is bounded below on the points that satisfy the constraints, as the sums of costs and penalties of the SQP are,
    CVX_INFEASIBLE means that there are no such points. *)
Definition bounded_below (inf : R) (cs : list (call R)) (q : quad R) : Prop := exists low, forall X, fits_problem inf 0 cs X -> low <= quad_value q X.
Lemma unsolvable_bounded inf cs q : unsolvable inf cs q -> bounded_below inf cs q -> forall X, ~ fits_problem inf 0 cs X.
Proof. intros U (low & B) X HX. destruct (U X HX low) as (Y & HY & L). specialize (B Y HY). lra. Qed.
Theorem C129_osqp_partial :
  forall (inf eps delta : R) (sz : nat) (warm : bool) (r : osqp_run R) (ps : list (pstep (osqp_run R))) (s s' : omodel R) (q : quad R),
    well_posed inf (calls_of ps) q -> osqp_honest inf eps delta r -> osqp_steps inf sz false warm empty_omodel ps = Ok s ->
    bounded_below inf (calls_of ps) q -> osqp_optimize inf sz false warm r s = Ok (s', CvxInfeasible) -> forall X, ~ fits_problem inf 0 (calls_of ps) X.
Proof.
  intros inf eps delta sz warm r ps s s' q WP HR E B EO. destruct (C128_osqp inf eps delta sz warm r ps s q WP HR E) as (s1 & st & E1 & _ & U & _).
  rewrite EO in E1. injection E1 as _ <-. apply (unsolvable_bounded inf _ q (U eq_refl) B).
Qed.
Print Assumptions C129_osqp_partial.
Theorem C129_bpmpd_partial :
  forall (inf eps delta : R) (solve : bpm R -> list R * Z) (ps : list (pstep (bpm R -> list R * Z))) (s s' : bmodel R) (q : quad R),
    well_posed inf (calls_of ps) q -> bpmpd_honest inf eps delta solve -> bpmpd_steps inf empty_bmodel ps = Ok s ->
    bounded_below inf (calls_of ps) q -> bpmpd_optimize inf solve s = Ok (s', CvxInfeasible) -> forall X, ~ fits_problem inf 0 (calls_of ps) X.
Proof.
  intros inf eps delta f ps s s' q WP HR E B EO. destruct (C128_bpmpd inf eps delta f ps s q WP HR E) as (s1 & st & E1 & _ & U & _).
  rewrite EO in E1. injection E1 as _ <-. apply (unsolvable_bounded inf _ q (U eq_refl) B).
Qed.
Print Assumptions C129_bpmpd_partial.

(** Minimising x without constraints: honest solvers, a feasible point, and the answer is CVX_INFEASIBLE. *)
Definition slope : quad R := quad_of_aff (aff_var 0).
Definition slope_calls : list (call R) := [AddVar; SetQuad slope].
Lemma slope_posed : well_posed 1000 slope_calls slope.
Proof.
  split; [lra|]. split; [cbn; auto|]. split; [intros id Hin; destruct Hin|]. split; [reflexivity|].
  split; [split; [reflexivity|split; reflexivity]|]. split; [|split]; cbn; repeat constructor.
Qed.
Lemma slope_one fits p g x : p = 0 -> g = 1 -> one 1 p g fits true x = VUnbounded.
Proof. intros -> ->. unfold one. cbn [Nat.eqb andb]. rewrite (proj2 (req_true 0 0)) by reflexivity. rewrite (proj2 (req_false 1 0)) by lra. reflexivity. Qed.
Theorem C129_infeasible_refuted :
  exists (cs : list (call R)) (q : quad R) (r : osqp_run R) (solve : bpm R -> list R * Z) (s s' : omodel R) (t t' : bmodel R),
    well_posed 1000 cs q /\ osqp_honest 1000 0 0 r /\ bpmpd_honest 1000 0 0 solve /\ (exists X, fits_problem 1000 0 cs X) /\
    osqp_steps 1000 8 false false empty_omodel (map Call cs) = Ok s /\ osqp_optimize 1000 8 false false r s = Ok (s', CvxInfeasible) /\
    bpmpd_steps 1000 empty_bmodel (map Call cs) = Ok t /\ bpmpd_optimize 1000 solve t = Ok (t', CvxInfeasible).
Proof.
  exists slope_calls, slope, (osqp_guess 1000 0), (bpm_guess 1000 0).
  destruct (sim_history 1000 slope_calls) as (b & Eb & H); [apply slope_posed|]. assert (Eb' := Eb). cbn in Eb. injection Eb as Eb.
  destruct (built 1000 _ _ slope_posed b Eb') as [_ Eo]. destruct (sim_update b _ _ H) as (_ & Ev & _).
  destruct (osqp_view 1000 _ _ b slope_posed H Eo) as (P & g & A & l & u & EP & EA & Ln & [_ (k & W)]).
  destruct (bpmpd_view 1000 _ _ b slope_posed Eb') as (d & ED & Lnb & [_ (kb & Wb)]).
  exists {| om_b := b; om_o := om_o empty_omodel; om_status := OUnsolved; om_sol := [] |}. eexists. exists {| bm_b := b; bm_sol := [] |}. eexists.
  split; [apply slope_posed|]. split; [apply osqp_guess_honest|]. split; [apply bpm_guess_honest|].
  assert (V : forall X, quad_value slope X = nth 0 X 0) by (intros X; cbv -[Rplus Rmult Rminus Ropp IZR nth]; lra).
  split; [exists [0]; split; intros id Hin; cbn in Hin; [destruct Hin|]; destruct Hin as [<-|[]]; unfold near; cbn; rnum; lra|].
  split; [rewrite <- Eb; reflexivity|]. split; [|split; [rewrite <- Eb; reflexivity|]].
  - unfold osqp_optimize, create_or_update. cbn [om_b om_o om_status om_sol empty_omodel]. rewrite EP. cbn [obind]. rewrite EA. cbn [obind o_ws o_A osqp_guess or_setup fst snd or_solve].
    rewrite Ev. replace (osqp_one 1000 0 {| w_P := P; w_q := g; w_A := A; w_l := l; w_u := u |}) with VUnbounded; [reflexivity|]. symmetry.
    unfold osqp_one. cbn [w_P w_q w_A w_l w_u]. rewrite Ln.
    assert (Q : forall t, / 2 * (mirrored (csc_get (m_csc P)) 0 0 * t * t) + nth 0 g 0 * t = t - k).
    { intros t. specialize (W [t]). rewrite V in W. change (pick _ [t]) with [t] in W. unfold osqp_value in W. cbn [w_P w_q] in W. rewrite Ln in W. rewrite quadratic1 in W. exact W. }
    pose proof (Q 0). pose proof (Q 1). pose proof (Q (-1)).
    replace (upto (m_rows A) (fun r => freeb 1000 (nth r l 0) (nth r u 0))) with true; [apply slope_one; lra|].
    clear - EA Eb. subst b. cbv -[Rplus Rmult Rle_dec Ropp IZR nfmax nfmin] in EA. injection EA as <- <- <-. symmetry. cbn [m_rows]. apply upto_true. intros r Hr.
    destruct r; [|lia]. cbn [nth]. unfold freeb. rewrite nfmax_R, nfmin_R. rewrite (proj2 (rle_true _ _)), (proj2 (rle_true _ _)); [reflexivity|..].
    + rewrite Rmin_left; lra.
    + rewrite Rmax_left; lra.
  - unfold bpmpd_optimize. cbn [bm_b bm_sol]. rewrite ED, Ev. cbn [obind]. unfold bpm_guess.
    assert (E1 : bpm_one 1000 0 d = VUnbounded); [|rewrite E1, Lnb].
    + unfold bpm_one. rewrite Lnb.
      assert (Q : forall t, / 2 * (lower (bget (i_q d)) 0 0 * t * t) + nth 0 (i_obj d) 0 * t = t - kb).
      { intros t. specialize (Wb [t]). rewrite V in Wb. change (pick _ [t]) with [t] in Wb. unfold bpm_value in Wb. rewrite Lnb in Wb. rewrite quadratic1 in Wb. exact Wb. }
      pose proof (Q 0). pose proof (Q 1). pose proof (Q (-1)).
      match goal with |- one _ _ _ ?f ?g _ = _ => replace g with true; [apply slope_one; lra|] end.
      clear - ED Eb. subst b. cbv -[Rplus Rmult Rle_dec Ropp IZR nfmax nfmin] in ED. injection ED as <-. cbn [i_rhs i_lo i_hi length Nat.eqb]. symmetry. rewrite andb_true_r. apply upto_true. intros r Hr.
      destruct r; [|cbn in Hr; lia]. cbn [nth]. unfold freeb. rewrite nfmax_R, nfmin_R. rewrite (proj2 (rle_true _ _)), (proj2 (rle_true _ _)); [reflexivity|..].
      * rewrite Rmin_left; lra.
      * rewrite Rmax_left; lra.
    + cbn [length live_v]. reflexivity.
Qed.
Print Assumptions C129_infeasible_refuted.

(** The same problem solved twice with qpOASES: the second time the hotstart fails and leaves 0 in nWSR, so that init, which needs one
    working set recalculation and got 255 the first time, has none. *)
Theorem C129_again_refuted :
  exists (Q : sqproblem R) (s s' s'' : qmodel Q), qpoases_honest 1000 0 0 Q /\ well_posed 1000 parabola_calls parabola /\
    qpoases_steps Q 1000 (empty_qmodel Q) (map Call parabola_calls) = Ok s /\
    qpoases_optimize Q 1000 s = Ok (Returns (s', CvxSolved)) /\ qpoases_optimize Q 1000 s' = Ok (Returns (s'', CvxFailed)).
Proof.
  exists (qpo_guess 1000 1 false).
  destruct (sim_history 1000 parabola_calls) as (b & Eb & _); [apply parabola_posed|]. cbn in Eb. injection Eb as Eb.
  destruct (built 1000 _ _ parabola_posed b) as [H Eo]; [rewrite <- Eb; reflexivity|].
  destruct (sim_update b _ _ H) as (H2 & Ev & Ec). destruct (sim_update _ _ _ H2) as (_ & Ev2 & Ec2).
  destruct (qpoases_view 1000 _ _ b parabola_posed H Eo) as (d & ED & Ln & Lm & V).
  destruct (qpoases_view 1000 _ _ (update b) parabola_posed H2) as (d2 & ED2 & Ln2 & Lm2 & V2); [rewrite update_obj; exact Eo|].
  exists {| qm_b := b; qm_p := None; qm_sol := [] |}. do 2 eexists. split; [apply qpo_guess_honest|]. split; [apply parabola_posed|]. split; [rewrite <- Eb; reflexivity|]. split.
  - unfold qpoases_optimize. cbn [qm_b qm_p qm_sol]. rewrite Ev, Ec, ED. cbn [obind update_solver qpo_guess sq_new sq_ready fst snd sq_init].
    rewrite (parabola_qpoases d V Ln). cbn [Nat.leb sq_primal snd]. reflexivity.
  - unfold qpoases_optimize. cbn [qm_b qm_p qm_sol]. rewrite Ev2, Ec2, ED2. cbn. rewrite (parabola_qpoases d2 V2 Ln2). reflexivity.
Qed.
Print Assumptions C129_again_refuted.
