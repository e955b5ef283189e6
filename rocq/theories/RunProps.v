(** * A whole run of BasicTrustRegionSQP::optimize (C133) *)
From Coq Require Import List ZArith Bool Arith Reals Lra Lia.
From Verif Require Import Num NumFacts RSums Common ScoExprModel ScoExprProofs ModelingModel ModelingSpec ModelingProofs BackendModel GurobiSpec SolveModel SolveSpec SolveProps RoundSolveSpec ScoOptModel ScoOptProofs ScoOptProps ScoOptExamples MeritModel MeritSpec MeritProofs MeritProps RunModel RunSpec RunProofs.
Import ListNotations.
Local Open Scope R_scope.

Lemma closest_len lb ub x d : length lb = length x -> length ub = length x -> length (closest_feasible (T := R) lb ub x d) = length x.
Proof. intros A B. unfold closest_feasible. rewrite map_length, !combine_length. lia. Qed.

Section Whole.
  Context {C : Type} (inf eps delta : R) (lib : library) (F : prob) (P : oparams R) (callback : C -> C) (clock : C -> C * R) (x : list R).
  Hypothesis OK : prob_ok inf eps F x.
  Hypothesis POK : params_ok P.
  Hypothesis HR : honest inf eps delta lib.

  Definition projected : list R := closest_feasible (f_lb F) (f_ub F) x (1 / 1000).
  Definition began box (c : C) : osst R (world (C := C) lib) :=
    with_point (with_omerit (run_start inf lib F x box c) (repeat (oinitial_merit_error_coeff P) (f_ncnt F))) projected [] [].
  Lemma began_between box c : length x = length (f_vars F) -> between inf eps lib F callback clock x (began box c).
  Proof using OK POK HR.
    intros Lx. pose proof OK as (_ & L1 & L2 & _). split; [|split].
    - split; [apply (first_inv inf eps delta) with (x0 := x); [exact OK|exact HR]|]. cbn. split; [unfold projected; rewrite closest_len; congruence|]. split; [apply repeat_length|]. split; [|left; reflexivity].
      apply Forall_forall. intros m Hm. apply repeat_spec in Hm. subst m. apply POK.
    - left. cbn. auto.
    - intros t X. discriminate.
  Qed.
  Lemma run_shape fuel box c : length x = length (f_vars F) -> f_vars F <> [] ->
    match run_sqp inf lib F P callback clock fuel x box c with
    | NoFuel => True | Undef | Ok None => False
    | Ok (Some (st, s)) => exists s', s = with_oworld s' (with_rest (o_world s') (callback (w_rest (o_world s')))) /\
        (between inf eps lib F callback clock x s' \/
         (stopped inf eps delta lib F P callback clock x s' /\ st = OPT_CONVERGED /\ ofeasible P s' = true))
    end.
  Proof using OK POK HR.
    intros Lx Ne. assert (Er : run_sqp inf lib F P callback clock fuel x box c = obind (omerit_loop P (run_env inf lib F callback clock) fuel fuel 0 (began box c))
      (fun '(st, s) => Ok (Some (st, with_oworld s (o_callback (run_env inf lib F callback clock) (o_world s)))))).
    { unfold run_sqp, optimize. cbn [o_x run_start]. unfold began, projected. destruct x as [|a x']; [destruct (f_vars F); [congruence|discriminate]|reflexivity]. }
    rewrite Er.
    pose proof (merit_in inf eps delta lib F P callback clock x OK POK HR fuel fuel 0 (began box c) (began_between box c Lx)) as K.
    destruct (omerit_loop P _ fuel fuel 0 (began box c)) as [[st s']| |]; cbn [obind]; [|exact I|contradiction]. exists s'. split; [reflexivity|exact K].
  Qed.
End Whole.

(** ** C133 *)
(** Every run ends without undefined behaviour, whatever the solver, the callbacks and the clock do. *)
Theorem C133_no_abort :
  forall (C : Type) inf eps delta (lib : library) F P (callback : C -> C) clock fuel x box c,
    prob_ok inf eps F x -> params_ok P -> honest inf eps delta lib -> length x = length (f_vars F) -> f_vars F <> [] ->
    run_sqp inf lib F P callback clock fuel x box c = NoFuel \/
    exists st s m, run_sqp inf lib F P callback clock fuel x box c = Ok (Some (st, s)) /\ w_model (o_world s) = Ok m.
Proof.
  intros C inf eps delta lib F P callback clock fuel x box c OK POK HR Lx Ne.
  pose proof (run_shape inf eps delta lib F P callback clock x OK POK HR fuel box c Lx Ne) as K.
  destruct (run_sqp _ _ _ _ _ _ _ _ _ _) as [[[st s]|]| |]; [|contradiction|left; reflexivity|contradiction]. right.
  destruct K as (s' & -> & K). assert (W : winv inf lib F (o_world s')) by (destruct K as [((W & _) & _)|(((W & _) & _) & _)]; exact W).
  destruct W as (_ & _ & m & Em). exists st. eexists. exists m. split; [reflexivity|exact Em].
Qed.
Print Assumptions C133_no_abort.

Theorem C133_ends :
  forall (C : Type) inf eps delta (lib : library) F P (callback : C -> C) clock x box c,
    prob_ok inf eps F x -> params_ok P -> honest inf eps delta lib -> length x = length (f_vars F) -> f_vars F <> [] ->
    0 <= otrust_shrink_ratio P < 1 -> 0 < omin_trust_box_size P ->
    exists K st s, forall fuel, (K <= fuel)%nat -> run_sqp inf lib F P callback clock fuel x box c = Ok (Some (st, s)).
Proof.
  intros C inf eps delta lib F P callback clock x box c OK POK HR Lx Ne Hs Hb.
  destruct (C12_terminates _ P (run_env inf lib F callback clock) Hs Hb (run_start inf lib F x box c)) as (K & r & Hr & Er).
  exists K. pose proof (Er K (le_n K)) as Ek. fold (run_sqp inf lib F P callback clock K x box c) in Ek.
  destruct (C133_no_abort C inf eps delta lib F P callback clock K x box c OK POK HR Lx Ne) as [X|(st & s & m & X & _)]; [congruence|].
  exists st, s. intros fuel Hf. unfold run_sqp. rewrite (Er fuel Hf). congruence.
Qed.
Print Assumptions C133_ends.

(** The point returned is the one getClosestFeasiblePoint made of the start, or one within limits and linear constraints. *)
Theorem C133_limits :
  forall (C : Type) inf eps delta (lib : library) F P (callback : C -> C) clock fuel x box c st s,
    prob_ok inf eps F x -> params_ok P -> honest inf eps delta lib -> length x = length (f_vars F) -> f_vars F <> [] ->
    run_sqp inf lib F P callback clock fuel x box c = Ok (Some (st, s)) ->
    length (o_x s) = length (f_vars F) /\ (o_x s = closest_feasible (f_lb F) (f_ub F) x (1 / 1000) \/ keeps inf eps F (o_x s)).
Proof.
  intros C inf eps delta lib F P callback clock fuel x box c st s OK POK HR Lx Ne E.
  pose proof (run_shape inf eps delta lib F P callback clock x OK POK HR fuel box c Lx Ne) as K. rewrite E in K.
  destruct K as (s' & -> & K). assert (B : base inf eps lib F x s') by (destruct K as [(B & _)|((B & _) & _)]; exact B).
  destruct B as (_ & L & _ & _ & G). split; [exact L|exact G].
Qed.
Print Assumptions C133_limits.

(** If the last thing a run did was solve a QP without taking the step, it converged at a point where the convexified merit
    function has little left to gain anywhere in the trust region. *)
Theorem C133_stationary :
  forall (C : Type) inf eps delta (lib : library) F P (callback : C -> C) clock fuel x box c st s t,
    prob_ok inf eps F x -> params_ok P -> honest inf eps delta lib -> length x = length (f_vars F) -> f_vars F <> [] ->
    run_sqp inf lib F P callback clock fuel x box c = Ok (Some (st, s)) -> o_trace s = OQP true :: t ->
    st = OPT_CONVERGED /\ omin_trust_box_size P <= o_box s /\ (forall v, In v (f_viols F (o_x s)) -> v < ocnt_tolerance P) /\
    (0 <= o_box s -> (forall i, (i < length (o_x s))%nat -> nth i (f_lb F) 0 <= nth i (o_x s) 0 <= nth i (f_ub F) 0) -> 0 < merit F (o_merit s) (o_x s) ->
     forall z, in_region inf F (o_x s) (o_box s) z ->
       merit F (o_merit s) (o_x s) < convex_merit (convexified F (o_merit s) (o_x s)) z + delta + cnt_weight (convexified F (o_merit s) (o_x s)) * eps +
         Rmax (omin_approx_improve P) (omin_approx_improve_frac P * merit F (o_merit s) (o_x s))).
Proof.
  intros C inf eps delta lib F P callback clock fuel x box c st s t OK POK HR Lx Ne E Et.
  pose proof (run_shape inf eps delta lib F P callback clock x OK POK HR fuel box c Lx Ne) as K. rewrite E in K.
  destruct K as (s' & -> & [(_ & _ & Ca)|(((_ & Lx' & _) & (_ & Ev & _) & Gb & nx & m & Ln & (_ & Fm) & Gain) & -> & Ef)]); [exfalso; exact (Ca t Et)|].
  cbn [o_x o_box o_merit with_oworld]. split; [reflexivity|]. split; [exact Gb|]. split.
  - intros v Hv. cbn [o_viols run_env] in Ev. unfold ofeasible in Ef. rewrite Ev in Ef. revert Ef Hv. generalize (f_viols F (o_x s')). intros l Ef Hv.
    destruct (vmaxc l) as [mx|] eqn:Em; [|destruct l; [destruct Hv|discriminate]]. pose proof (vmaxc_bound l mx (ocnt_tolerance P) Em Ef) as B. rewrite Forall_forall in B. apply Rltb_true. exact (B v Hv).
  - intros Hb Hx Hm z Hz. specialize (Fm z). pose proof Hz as (Lz & _). assert (m <= convex_merit (convexified F (o_merit s') (o_x s')) z + delta + cnt_weight (convexified F (o_merit s') (o_x s')) * eps).
    { apply Fm; [congruence|]. eapply region_allowed; eassumption. }
    set (M := merit F (o_merit s') (o_x s')) in *. pose proof (Rmax_l (omin_approx_improve P) (omin_approx_improve_frac P * M)). pose proof (Rmax_r (omin_approx_improve P) (omin_approx_improve_frac P * M)).
    destruct Gain as [G|G]; [lra|]. apply (Rmult_lt_compat_r M) in G; [|exact Hm]. unfold Rdiv in G. rewrite Rmult_assoc, Rinv_l in G by lra. lra.
Qed.
Print Assumptions C133_stationary.

(** For a convex problem whose convexification does not overestimate, that means close to the best point anywhere. *)
Lemma towards_len t x z : length z = length x -> length (towards t x z) = length x.
Proof. intros H. unfold towards. rewrite map_length, combine_length. lia. Qed.
Lemma towards_nth t x z i : length z = length x -> (i < length x)%nat -> nth i (towards t x z) 0 = nth i x 0 + t * (nth i z 0 - nth i x 0).
Proof. intros H Hi. unfold towards. rewrite (nth_indep _ 0 ((fun p : R * R => fst p + t * (snd p - fst p)) (0, 0))) by (rewrite map_length, combine_length; lia). rewrite (map_nth (fun p : R * R => fst p + t * (snd p - fst p))), combine_nth by congruence. reflexivity. Qed.
Lemma towards_value t x z (a : aff R) : length z = length x -> aff_in (length x) a -> aff_value a (towards t x z) = aff_value a x + t * (aff_value a z - aff_value a x).
Proof.
  intros H [W Hin]. rewrite !aff_value_sum. set (l := combine (a_coeffs a) (a_vars a)).
  assert (E : rsum (fun p : R * nat => fst p * nth (snd p) (towards t x z) 0) l = rsum (fun p => fst p * nth (snd p) x 0) l + t * (rsum (fun p => fst p * nth (snd p) z 0) l - rsum (fun p => fst p * nth (snd p) x 0) l)).
  { assert (Hl : forall p, In p l -> (snd p < length x)%nat) by (intros [c v] Hp; apply in_combine_r in Hp; rewrite Forall_forall in Hin; apply Hin; exact Hp).
    clearbody l. induction l as [|p l IH]; [rewrite !rsum_nil; lra|]. rewrite !rsum_cons, IH by (intros q Hq; apply Hl; right; exact Hq). rewrite towards_nth by (try exact H; apply Hl; left; reflexivity). lra. }
  rewrite E. lra.
Qed.
Theorem C133_convex :
  forall (C : Type) inf eps delta (lib : library) F P (callback : C -> C) clock fuel x box c st s t,
    prob_ok inf eps F x -> params_ok P -> honest inf eps delta lib -> length x = length (f_vars F) -> f_vars F <> [] ->
    run_sqp inf lib F P callback clock fuel x box c = Ok (Some (st, s)) -> o_trace s = OQP true :: t ->
    0 < o_box s -> 0 < merit F (o_merit s) (o_x s) -> in_region inf F (o_x s) 0 (o_x s) ->
    convex_from (o_x s) (merit F (o_merit s)) ->
    (forall z, length z = length (o_x s) -> convex_merit (convexified F (o_merit s) (o_x s)) z <= merit F (o_merit s) z) ->
    forall D z, o_box s <= D -> in_region inf F (o_x s) D z ->
      merit F (o_merit s) (o_x s) < merit F (o_merit s) z +
        (delta + cnt_weight (convexified F (o_merit s) (o_x s)) * eps + Rmax (omin_approx_improve P) (omin_approx_improve_frac P * merit F (o_merit s) (o_x s))) * (D / o_box s).
Proof.
  intros C inf eps delta lib F P callback clock fuel x box c st s t OK POK HR Lx Ne E Et Hb Hm (_ & Hl & Hx) Hc Hu D z HD (Lz & Zl & Zx).
  destruct (C133_limits C inf eps delta lib F P callback clock fuel x box c st s OK POK HR Lx Ne E) as [Ls _].
  destruct (C133_stationary C inf eps delta lib F P callback clock fuel x box c st s t OK POK HR Lx Ne E Et) as (_ & _ & _ & K).
  set (T := o_box s / D). assert (HDp : 0 < D) by lra. assert (HT : 0 < T <= 1).
  { unfold T. split; [apply Rdiv_lt_0_compat; lra|]. apply (Rmult_le_reg_r D); [lra|]. unfold Rdiv. rewrite Rmult_assoc, Rinv_l by lra. lra. }
  assert (HTD : T * D = o_box s) by (unfold T; field; lra).
  assert (Hz : in_region inf F (o_x s) (o_box s) (towards T (o_x s) z)).
  { split; [apply towards_len; exact Lz|]. split.
    - intros k Hk. assert (Ak : aff_in (length (o_x s)) (snd k)) by (destruct OK as (_ & _ & _ & _ & O & _); rewrite Forall_forall in O; rewrite Ls; apply O; exact Hk).
      rewrite towards_value by assumption. specialize (Hl k Hk). specialize (Zl k Hk). destruct (fst k); [nra|]. rewrite Hl, Zl. lra.
    - intros i Hi. rewrite towards_nth by assumption. destruct (Hx i Hi) as [Hx1 _]. destruct (Zx i Hi) as [Z1 Z2]. split; [nra|].
      replace (nth i (o_x s) 0 + T * (nth i z 0 - nth i (o_x s) 0) - nth i (o_x s) 0) with (T * (nth i z 0 - nth i (o_x s) 0)) by lra. rewrite Rabs_mult, (Rabs_right T) by lra. rewrite <- HTD. apply Rmult_le_compat_l; lra. }
  specialize (K ltac:(lra) (fun i Hi => proj1 (Hx i Hi)) Hm _ Hz). specialize (Hu (towards T (o_x s) z) (towards_len T _ _ Lz)). specialize (Hc z T Lz ltac:(lra)).
  set (M := merit F (o_merit s)) in *. set (tol := delta + _ + _). assert (Kt : M (o_x s) < M (towards T (o_x s) z) + tol) by (unfold tol; lra).
  assert (HDb : D / o_box s = / T) by (unfold T; field; lra). rewrite HDb. apply (Rmult_lt_reg_l T); [lra|]. replace (T * (M z + tol * / T)) with (T * M z + tol) by (field; lra). lra.
Qed.
Print Assumptions C133_convex.

(** ** runs with a solver that solves what has a solution *)
Section Good.
  Context {C : Type} (inf eps delta : R) (lib : library) (F : prob) (P : oparams R) (callback : C -> C) (clock : C -> C * R) (x0 : list R).
  Local Notation n := (length (f_vars F)).
  Local Notation E := (run_env inf lib F callback clock).
  Hypothesis OK : prob_ok inf eps F x0.
  Hypothesis POK : params_ok P.
  Hypothesis HR : honest inf eps delta lib.
  Hypothesis AB : forall i, able inf lib i.
  Hypothesis CL : forall c, snd (clock c) <= omax_time P.
  Local Notation between := (between inf eps lib F callback clock x0).
  Local Notation steps s Q := (Q (f_lin F) (box_lo (f_lb F) (f_ub F) (o_x s) (o_box s)) (box_hi (f_lb F) (f_ub F) (o_x s) (o_box s)) (convexified F (o_merit s) (o_x s))).
  Lemma prepare_same s s' : oprepare E s = Ok s' -> o_x s' = o_x s /\ o_merit s' = o_merit s /\ o_box s' = o_box s.
  Proof using.
    unfold oprepare. cbn [o_cost_vals o_cnt_viols o_nfe with_oworld]. destruct (o_cost_vals s), (o_cnt_viols s); [destruct (o_nfe s =? 0)%Z|..]; cbn [obind]; intros X; try discriminate; injection X as <-; auto.
  Qed.
  Lemma one_pass s k j it : between s -> omin_trust_box_size P <= o_box s -> (exists z, length z = n /\ steps s (best_step inf 0 0) z) ->
    exists s2 w' x m, between s2 /\ inside inf eps lib F callback clock x0 s2 /\ o_x s2 = o_x s /\ o_merit s2 = o_merit s /\ o_box s2 = o_box s /\
      length x = n /\ steps s (best_step inf eps delta) x /\ steps s (fair_merit inf eps delta) x m /\ otr_body P E 0 s2 = Ok (decide lib F P s2 w' x m) /\
      osqp_loop P E (S k) (S j) it s = obind (match decide lib F P s2 w' x m with XRetry f s3 => otr_loop P E k f s3 | y => Ok y end) (fun x =>
            match x with
            | XPenalty s => Ok (JPenalty s)
            | XFailed s => Ok (JCleanup OPT_FAILED s)
            | XRetry _ s => Undef
            | XBreak s =>
                if Rltb (o_box s) (omin_trust_box_size P) then Ok (JPenalty s)
                else if (it >=? omax_iter P)%Z
                then Ok (JCleanup (if ofeasible P s then OPT_CONVERGED else OPT_SCO_ITERATION_LIMIT) s)
                else osqp_loop P E (S k) j (it + 1) s
            end).
  Proof using OK POK HR AB CL.
    intros Hs Hb Ex. cbn [osqp_loop]. cbn [o_clock run_env]. destruct (clock _) as [c t] eqn:Ec.
    assert (Ht : t <= omax_time P) by (pose proof (CL (w_rest (o_world s))) as X; rewrite Ec in X; exact X).
    assert (Hs1 : between (with_oworld s (with_rest (o_world s) c))).
    { destruct Hs as ((Iw & B) & Co & Ca). split; [split; [exact Iw|exact B]|]. split; [exact Co|exact Ca]. }
    rnum. destruct (Rltb _ t) eqn:X; [apply Rltb_true in X; lra|]. destruct (prepare_in inf eps delta lib F callback clock x0 OK HR _ Hs1) as (s2 & E2 & H2).
    destruct (prepare_same _ _ E2) as (P1 & P2 & P3). cbn [with_oworld o_x o_merit o_box] in P1, P2, P3. rewrite E2. cbn [obind otr_loop]. rnum. destruct (Rleb _ _) eqn:G; [|exfalso; apply not_true_iff_false in G; apply G, Rleb_true; lra].
    destruct (body_solved inf eps delta lib F P callback clock x0 OK HR s2 H2 (AB _)) as (w' & x & m & Lx & _ & Bs & Fm & Eb).
    { rewrite P1, P2, P3. exact Ex. }
    rewrite Eb. cbn [obind]. exists s2, w', x, m. rewrite <- P1, <- P2, <- P3. split; [apply after_between; apply H2|]. split; [exact H2|]. do 3 (split; [reflexivity|]). split; [exact Lx|]. split; [exact Bs|]. split; [exact Fm|]. split; [exact Eb|]. destruct (decide lib F P s2 w' x m); reflexivity.
  Qed.
  Lemma no_gain s k j it : between s -> omin_trust_box_size P <= o_box s -> (exists z, length z = n /\ steps s (best_step inf 0 0) z) ->
    (forall x m, length x = n -> steps s (best_step inf eps delta) x -> steps s (fair_merit inf eps delta) x m -> merit F (o_merit s) (o_x s) - m < omin_approx_improve P) ->
    exists s', osqp_loop P E (S k) (S j) it s = Ok (JPenalty s') /\ o_x s' = o_x s /\ o_box s' = o_box s /\ o_merit s' = o_merit s /\ o_cnt_viols s' = f_viols F (o_x s) /\ exists t, o_trace s' = OQP true :: t.
  Proof using OK POK HR AB CL.
    intros Hs Hb Ex Hg. destruct (one_pass s k j it Hs Hb Ex) as (s2 & w' & x & m & _ & [(_ & (_ & Ev & _) & _) _] & X1 & X2 & X3 & Lx & Bs & Fm & Eb & ->). specialize (Hg x m Lx Bs Fm).
    unfold decide. cbn [o_x o_merit o_box with_counts oemit with_oworld o_nfe o_nqp]. destruct (Rltb _ (omin_approx_improve P)) eqn:T1; [|exfalso; apply not_true_iff_false in T1; apply T1, Rltb_true; rewrite X1, X2; exact Hg].
    cbn [obind]. eexists. split; [reflexivity|]. split; [exact X1|]. split; [exact X3|]. split; [exact X2|]. split; [cbn [o_viols run_env] in Ev; rewrite <- X1; exact Ev|]. eexists. reflexivity.
  Qed.
  Lemma gain s k j it xn : between s -> omin_trust_box_size P <= o_box s -> omin_trust_box_size P <= o_box s * otrust_expand_ratio P -> (it < omax_iter P)%Z ->
    (exists z, length z = n /\ steps s (best_step inf 0 0) z) ->
    (forall x m, length x = n -> steps s (best_step inf eps delta) x -> steps s (fair_merit inf eps delta) x m -> x = xn /\
       omin_approx_improve P <= merit F (o_merit s) (o_x s) - m /\ omin_approx_improve_frac P <= (merit F (o_merit s) (o_x s) - m) / merit F (o_merit s) (o_x s) /\
       0 <= merit F (o_merit s) (o_x s) - merit F (o_merit s) xn /\ oimprove_ratio_threshold P <= (merit F (o_merit s) (o_x s) - merit F (o_merit s) xn) / (merit F (o_merit s) (o_x s) - m)) ->
    exists s', osqp_loop P E (S k) (S j) it s = osqp_loop P E (S k) j (it + 1) s' /\ between s' /\ o_x s' = xn /\ o_merit s' = o_merit s /\ o_box s' = o_box s * otrust_expand_ratio P.
  Proof using OK POK HR AB CL.
    intros Hs Hb Hb' Hit Ex Hg. destruct (one_pass s k j it Hs Hb Ex) as (s2 & w' & x & m & _ & H2 & X1 & X2 & X3 & Lx & Bs & Fm & Eb & ->). destruct (Hg x m Lx Bs Fm) as (-> & G1 & G2 & G3 & G4).
    assert (K : forall y, otr_body P E 0 s2 = Ok y -> match y with XBreak s' => after_tr inf eps lib F callback clock x0 s' | _ => True end).
    { intros y Ey. destruct (inside_body inf eps delta lib F P callback clock x0 OK HR 0 s2 H2) as (y' & Ey' & Ky); [rewrite X3; exact Hb|]. rewrite Ey in Ey'. injection Ey' as <-. destruct y; try exact I. exact Ky. }
    specialize (K _ Eb). revert K. unfold decide. cbn [o_x o_merit o_box with_counts oemit with_oworld o_nfe o_nqp]. rewrite X1, X2, X3.
    destruct (Rltb _ (omin_approx_improve P)) eqn:T1; [apply Rltb_true in T1; lra|]. destruct (Rltb _ (omin_approx_improve_frac P)) eqn:T2; [apply Rltb_true in T2; lra|].
    destruct (Rltb _ 0) eqn:T3; [apply Rltb_true in T3; lra|]. destruct (Rltb _ (oimprove_ratio_threshold P)) eqn:T4; [apply Rltb_true in T4; lra|]. cbn [orb obind]. intros K.
    cbn [o_box with_obox]. destruct (Rltb _ (omin_trust_box_size P)) eqn:T5; [apply Rltb_true in T5; lra|]. destruct (Z.geb_spec it (omax_iter P)) as [X|_]; [lia|].
    eexists. split; [reflexivity|]. split; [apply after_between; exact K|]. split; [reflexivity|]. split; [exact X2|reflexivity].
  Qed.
End Good.

(** one variable between -5 and 5, cost x + 10, taken exactly *)
Definition ex_line (lin : list (bool * aff R)) : prob :=
  {| f_vars := [(-5, 5)]; f_lin := lin; f_lb := [-5]; f_ub := [5]; f_costs := fun x => [nth 0 x 0 + 10]; f_ncnt := 0; f_viols := fun _ => [];
     f_ccosts := fun _ => [[OpAff {| a_const := 10; a_coeffs := [1]; a_vars := [0%nat] |}]]; f_ccnts := fun _ => [] |}.
Definition ex_five : bool * aff R := (false, {| a_const := -5; a_coeffs := [1]; a_vars := [0%nat] |}).
Definition ex_params : oparams R := odefaults 50 3.
Lemma line_ok lin x0 : Forall (fun c => aff_in 1 (snd c) /\ small 100 (snd c)) lin -> prob_ok 100 0 (ex_line lin) x0.
Proof.
  intros Hl. unfold prob_ok. cbn. split; [lra|]. do 2 (split; [reflexivity|]). split; [|split; [exact Hl|]].
  - intros i Hi. destruct i; [cbn; lra|lia].
  - intros x _ _. do 2 (split; [reflexivity|]). split; [left; discriminate|]. split; [|constructor]. constructor; [|constructor]. constructor; [|constructor]. split; [|exact I]. split; [reflexivity|]. constructor; [cbn; lia|constructor].
Qed.
Lemma ex_params_ok : params_ok ex_params.
Proof. split; cbn; lra. Qed.
Lemma ex_values : omin_trust_box_size ex_params = 1 / 10000 /\ omin_approx_improve ex_params = 1 / 10000 /\ omin_approx_improve_frac ex_params = -1000000 /\
  oimprove_ratio_threshold ex_params = 1 / 4 /\ otrust_expand_ratio ex_params = 3 / 2 /\ ocnt_tolerance ex_params = 1 / 10000.
Proof.
  unfold ex_params, odefaults. cbn [omin_trust_box_size omin_approx_improve omin_approx_improve_frac oimprove_ratio_threshold otrust_expand_ratio ocnt_tolerance]. rnum. unfold Rdec. cbn.
  change (Pos.to_nat 4) with 4%nat. change (Pos.to_nat 2) with 2%nat. change (Pos.to_nat 1) with 1%nat. cbn [pow]. repeat apply conj; lra.
Qed.
Lemma line_merit lin mu x : merit (ex_line lin) mu x = nth 0 x 0 + 10.
Proof. unfold merit. cbn. rewrite rsum_cons, !rsum_nil. lra. Qed.
Lemma line_convex lin mu y x : convex_merit (convexified (ex_line lin) mu y) x = nth 0 x 0 + 10.
Proof. unfold convex_merit. cbn. rewrite !rsum_cons, !rsum_nil. cbn [op_exact]. rewrite aff_value_sum. cbn. rewrite rsum_cons, rsum_nil. cbn. lra. Qed.
Lemma line_weights lin mu y : cost_weight (convexified (ex_line lin) mu y) = 0 /\ cnt_weight (convexified (ex_line lin) mu y) = 0.
Proof. unfold cost_weight, cnt_weight. cbn. rewrite !rsum_cons, !rsum_nil. cbn. split; lra. Qed.
Lemma line_box lin a box : -5 <= a <= 5 -> box_lo (f_lb (ex_line lin)) (f_ub (ex_line lin)) [a] box = [Rmax (a - box) (-5)] /\ box_hi (f_lb (ex_line lin)) (f_ub (ex_line lin)) [a] box = [Rmin (a + box) 5].
Proof.
  intros Ha. unfold box_lo, box_hi, trust_boxes. cbn [map combine f_lb f_ub ex_line fst snd]. unfold trust_box1. rewrite nmax_R, nmin_R. replace (nclamp a (-5) 5) with a by (unfold nclamp; rnum; repeat rcase; lra).
  rnum. split; reflexivity.
Qed.
Lemma line_allowed lin lo hi z : lin = [] \/ lin = [ex_five] -> -100 < lo -> hi < 100 -> (allowed 100 0 lin [lo] [hi] [z] <-> lo <= z <= hi /\ (lin = [ex_five] -> z = 5)).
Proof.
  intros Hlin Hlo Hhi. assert (E5 : cnt_near 0 ex_five [z] <-> z = 5).
  { unfold cnt_near, ex_five. cbn [fst snd]. rewrite aff_value_sum. cbn. rewrite rsum_cons, rsum_nil. cbn. split; lra. }
  unfold allowed. split.
  - intros [A B]. specialize (B 0%nat ltac:(cbn; lia)). cbn in B. unfold near in B. split; [lra|]. intros ->. apply E5. apply A. left. reflexivity.
  - intros [A B]. split.
    + intros c Hc. destruct Hlin as [->| ->]; [destruct Hc|]. destruct Hc as [<-|[]]. apply E5. auto.
    + intros i Hi. cbn in Hi. assert (i = 0%nat) as -> by lia. cbn. unfold near. lra.
Qed.

Section Line.
  Context (lib : library) (Hr : honest 100 0 0 lib) (Ha : forall i, able 100 lib i).
  Local Notation go lin fuel x box := (run_sqp 100 lib (ex_line lin) ex_params (fun u : unit => u) (fun u => (u, 0)) fuel x box tt).
  Lemma line_start lin fuel x box : go lin fuel [x] box = obind (omerit_loop ex_params (run_env 100 lib (ex_line lin) (fun u : unit => u) (fun u => (u, 0))) fuel fuel 0
     (began 100 lib (ex_line lin) ex_params [x] box tt))
     (fun '(st, s) => Ok (Some (st, with_oworld s (with_rest (o_world s) (w_rest (o_world s)))))).
  Proof. reflexivity. Qed.
  Lemma line_projected lin x : projected (ex_line lin) [x] = [Rmin (4999 / 1000) x].
  Proof. unfold projected, closest_feasible. cbn [f_lb f_ub ex_line combine map fst snd]. unfold closest_feasible1. cbn zeta. rewrite nfmin_R. rnum. do 2 f_equal. lra. Qed.
  Lemma line_steps lin a box (mu : list R) best : lin = [] \/ lin = [ex_five] -> -5 <= a <= 5 -> 0 <= box ->
    (forall z, Rmax (a - box) (-5) <= z <= Rmin (a + box) 5 /\ (lin = [ex_five] -> z = 5) -> best <= z) ->
    Rmax (a - box) (-5) <= best <= Rmin (a + box) 5 /\ (lin = [ex_five] -> best = 5) ->
    let Q {A} (f : list (bool * aff R) -> list R -> list R -> cpass R -> A) := f lin (box_lo [-5] [5] [a] box) (box_hi [-5] [5] [a] box) (convexified (ex_line lin) mu [a]) in
    Q (best_step 100 0 0) [best] /\ forall x m, length x = 1%nat -> Q (best_step 100 0 0) x -> Q (fair_merit 100 0 0) x m -> x = [best] /\ m = best + 10.
  Proof.
    intros Hlin Hx Hbox Hmin Hin Q. subst Q. cbn beta. destruct (line_box lin a box Hx) as [L1 L2]. cbn [f_lb f_ub ex_line] in L1, L2. rewrite L1, L2.
    set (lo := Rmax (a - box) (-5)) in *. set (hi := Rmin (a + box) 5) in *. assert (G1 : -100 < lo) by (unfold lo, Rmax; destruct (Rle_dec _ _); lra). assert (G2 : hi < 100) by (unfold hi, Rmin; destruct (Rle_dec _ _); lra).
    destruct (line_weights lin mu [a]) as [W1 W2]. unfold best_step, fair_merit. rewrite W1, W2. split.
    - split; [apply line_allowed; auto|]. intros [|z [|? ?]] Lz Az; try discriminate. apply line_allowed in Az; auto. rewrite !line_convex. cbn. specialize (Hmin z Az). lra.
    - intros [|x [|? ?]] m Lx (Ax & Bx) (Fx & Gx); try discriminate. apply line_allowed in Ax; auto. pose proof (Hmin x Ax).
      assert (Ab : allowed 100 0 lin [lo] [hi] [best]) by (apply line_allowed; auto). specialize (Bx [best] eq_refl Ab). specialize (Gx [best] eq_refl Ab). rewrite !line_convex in *. cbn in *. split; [f_equal; lra|lra].
  Qed.

  Lemma stays k : exists s, go [ex_five] (S k) [5] (1 / 10) = Ok (Some (OPT_CONVERGED, s)) /\ o_x s = [4999 / 1000].
  Proof.
    rewrite line_start. set (s0 := began _ _ _ _ _ _ _). destruct ex_values as (V1 & V2 & _).
    assert (X0 : o_x s0 = [4999 / 1000]) by (change (o_x s0) with (projected (ex_line [ex_five]) [5]); rewrite line_projected; f_equal; unfold Rmin; destruct (Rle_dec _ _); lra).
    assert (OK : prob_ok 100 0 (ex_line [ex_five]) [5]).
    { apply line_ok. constructor; [|constructor]. split; [split; [reflexivity|constructor; [cbn; lia|constructor]]|unfold small; cbn; lra]. }
    destruct (line_steps [ex_five] (4999 / 1000) (1 / 10) (o_merit s0) 5) as [S1 S2]; [right; reflexivity|lra|lra|intros z [_ Hz]; specialize (Hz eq_refl); lra| |].
    { split; [|reflexivity]. unfold Rmax, Rmin. repeat destruct (Rle_dec _ _); lra. }
    destruct (no_gain 100 0 0 lib (ex_line [ex_five]) ex_params (fun u : unit => u) (fun u => (u, 0)) [5] OK ex_params_ok Hr Ha) with (s := s0) (k := k) (j := k) (it := 1%Z) as (s' & Es & X' & _ & _ & V' & _).
    - intros c0. cbn. lra.
    - apply (began_between 100 0 0); [exact OK|exact ex_params_ok|exact Hr|reflexivity].
    - rewrite V1. cbn. lra.
    - exists [5]. split; [reflexivity|]. rewrite X0. exact S1.
    - intros x m Lx Bx Fx. rewrite X0 in Bx, Fx |- *. destruct (S2 x m Lx Bx Fx) as [_ ->]. rewrite line_merit, V2. cbn. lra.
    - cbn [omerit_loop]. rnum. cbn [omax_merit_coeff_increases ex_params odefaults]. rnum. destruct (Rltb_spec 0 5) as [_|X]; [|lra]. rewrite Es. cbn [obind]. unfold ofeasible. rewrite V'. cbn [f_viols ex_line vmaxc].
      eexists. split; [reflexivity|]. cbn. congruence.
  Qed.

  Lemma reaches k : exists s t, go [] (S (S k)) [0] 6 = Ok (Some (OPT_CONVERGED, s)) /\ o_x s = [-5] /\ o_box s = 9 /\ o_trace s = OQP true :: t.
  Proof.
    rewrite line_start. set (s0 := began _ _ _ _ _ _ _). destruct ex_values as (V1 & V2 & V3 & V4 & V5 & _).
    assert (X0 : o_x s0 = [0]) by (change (o_x s0) with (projected (ex_line []) [0]); rewrite line_projected; f_equal; unfold Rmin; destruct (Rle_dec _ _); lra).
    assert (OK : prob_ok 100 0 (ex_line []) [0]) by (apply line_ok; constructor).
    destruct (line_steps [] 0 6 (o_merit s0) (-5)) as [S1 S2]; [left; reflexivity|lra|lra|intros z [[Hz _] _]; revert Hz; unfold Rmax; destruct (Rle_dec _ _); lra| |].
    { split; [|discriminate]. unfold Rmax, Rmin. repeat destruct (Rle_dec _ _); lra. }
    destruct (gain 100 0 0 lib (ex_line []) ex_params (fun u : unit => u) (fun u => (u, 0)) [0] OK ex_params_ok Hr Ha) with (s := s0) (k := S k) (j := S k) (it := 1%Z) (xn := [-5]) as (s1 & E1 & B1 & X1 & M1 & Bx1).
    - intros c0. cbn. lra.
    - apply (began_between 100 0 0); [exact OK|exact ex_params_ok|exact Hr|reflexivity].
    - rewrite V1. cbn. lra.
    - rewrite V1, V5. cbn. lra.
    - cbn. lia.
    - exists [-5]. split; [reflexivity|]. rewrite X0. exact S1.
    - intros x m Lx Bx Fx. rewrite X0 in Bx, Fx |- *. destruct (S2 x m Lx Bx Fx) as [-> ->]. rewrite !line_merit, V2, V3, V4. cbn. split; [reflexivity|]. lra.
    - change (o_box s0) with 6 in Bx1. rewrite V5 in Bx1.
      destruct (line_steps [] (-5) 9 (o_merit s1) (-5)) as [T1 T2]; [left; reflexivity|lra|lra|intros z [[Hz _] _]; revert Hz; unfold Rmax; destruct (Rle_dec _ _); lra| |].
      { split; [|discriminate]. unfold Rmax, Rmin. repeat destruct (Rle_dec _ _); lra. }
      assert (Bx : o_box s1 = 9) by lra.
      destruct (no_gain 100 0 0 lib (ex_line []) ex_params (fun u : unit => u) (fun u => (u, 0)) [0] OK ex_params_ok Hr Ha) with (s := s1) (k := S k) (j := k) (it := 2%Z) as (s' & Es & X' & B' & _ & V' & t & Et).
      + intros c0. cbn. lra.
      + exact B1.
      + rewrite V1, Bx. lra.
      + exists [-5]. split; [reflexivity|]. rewrite X1, Bx. exact T1.
      + intros x m Lx Hx Fx. rewrite X1, Bx in Hx, Fx. rewrite X1. destruct (T2 x m Lx Hx Fx) as [_ ->]. rewrite line_merit, V2. cbn. lra.
      + cbn [omerit_loop]. rnum. cbn [omax_merit_coeff_increases ex_params odefaults]. rnum. destruct (Rltb_spec 0 5) as [_|X]; [|lra]. fold ex_params. rewrite E1. change (1 + 1)%Z with 2%Z. rewrite Es. cbn [obind]. unfold ofeasible. rewrite V'. cbn [f_viols ex_line vmaxc].
        eexists. exists t. split; [reflexivity|]. cbn [o_x o_box o_trace with_oworld]. split; [congruence|]. split; [congruence|exact Et].
  Qed.
End Line.

(** there are such libraries of all three kinds *)
Example C133_libraries : forall inf, exists solver Q solver', let good lib := honest inf 0 0 lib /\ forall i, able inf lib i in good (Osqp 0 false solver) /\ good (Qpoases Q) /\ good (Bpmpd solver').
Proof.
  intros inf. destruct (C128_able inf) as (r & Q & f & H1 & H2 & H3 & H4 & H5 & H6 & H7). exists (fun _ => r), Q, (fun _ => f). cbn.
  split; [split; intros _; assumption|]. split; [split; [exact H3|intros _; split; assumption]|]. split; intros _; assumption.
Qed.
(** the hypotheses of all four theorems can be met: with any of them, a step to -5 is taken, the next QP finds nothing better *)
Example C133_run : forall lib, honest 100 0 0 lib -> (forall i, able 100 lib i) -> exists s t,
  prob_ok 100 0 (ex_line []) [0] /\ params_ok ex_params /\ 0 <= otrust_shrink_ratio ex_params < 1 /\ 0 < omin_trust_box_size ex_params /\
  run_sqp 100 lib (ex_line []) ex_params (fun u : unit => u) (fun u => (u, 0)) 2 [0] 6 tt = Ok (Some (OPT_CONVERGED, s)) /\ o_x s = [-5] /\ o_trace s = OQP true :: t /\
  0 <= o_box s /\ (forall i, (i < length (o_x s))%nat -> nth i (f_lb (ex_line [])) 0 <= nth i (o_x s) 0 <= nth i (f_ub (ex_line [])) 0) /\ 0 < merit (ex_line []) (o_merit s) (o_x s) /\
  in_region 100 (ex_line []) (o_x s) (o_box s) [4].
Proof.
  intros lib Hr Ha. destruct (reaches lib Hr Ha 0) as (s & t & Es & Ex & Eb & Et). exists s, t.
  split; [apply line_ok; constructor|]. split; [exact ex_params_ok|]. destruct ex_values as (V1 & _). rewrite V1. split; [unfold ex_params, odefaults; cbn [otrust_shrink_ratio]; rnum; unfold Rdec; cbn; change (Pos.to_nat 1) with 1%nat; lra|]. split; [lra|].
  split; [exact Es|]. split; [exact Ex|]. split; [exact Et|]. rewrite Eb, Ex, line_merit. cbn. split; [lra|]. split; [intros i Hi; assert (i = 0%nat) as -> by lia; cbn; lra|]. split; [lra|].
  split; [reflexivity|]. split; [intros c []|]. intros i Hi. cbn in Hi. assert (i = 0%nat) as -> by lia. cbn. split; [lra|]. unfold Rabs. destruct (Rcase_abs _); lra.
Qed.

(** the further hypotheses of [C133_convex] hold for it, at any point and any coefficients *)
Example C133_convex_line : forall mu x, length x = 1%nat ->
  convex_from x (merit (ex_line []) mu) /\ (forall z, length z = length x -> convex_merit (convexified (ex_line []) mu x) z <= merit (ex_line []) mu z).
Proof.
  intros mu x Lx. split.
  - intros z t Lz Ht. rewrite !line_merit. rewrite towards_nth by (try exact Lz; lia). lra.
  - intros z Lz. rewrite line_merit, line_convex. lra.
Qed.

(** Terms need not be affine: the cost |x * x - 4| and its linearisations, whose constants grow without bound outside the limits. *)
Definition ex_square_at (y : R) : aff R := {| a_const := - (y * y) - 4; a_coeffs := [2 * y]; a_vars := [0%nat] |}.
Definition ex_square : prob :=
  {| f_vars := [(-5, 5)]; f_lin := []; f_lb := [-5]; f_ub := [5]; f_costs := fun x => [Rabs (nth 0 x 0 * nth 0 x 0 - 4)]; f_ncnt := 0; f_viols := fun _ => [];
     f_ccosts := fun x => [[OpAbs (ex_square_at (nth 0 x 0)) 1]]; f_ccnts := fun _ => [] |}.
Example C133_nonlinear : prob_ok 100 0 ex_square [3] /\ ~ small 100 (ex_square_at 20).
Proof.
  split; [|unfold small; cbn [a_const ex_square_at]; lra]. unfold prob_ok. cbn. split; [lra|]. do 2 (split; [reflexivity|]). split; [|split; [constructor|]].
  - intros i Hi. destruct i; [cbn; lra|lia].
  - intros x Lx Vx. assert (Hx : -5 <= nth 0 x 0 <= 5).
    { destruct Vx as [->|[_ K]]; [|specialize (K 0%nat ltac:(cbn; lia)); cbn in K; unfold near in K; lra]. unfold closest_feasible. cbn. unfold closest_feasible1. cbn zeta. rewrite nfmin_R. rnum. unfold Rmin. destruct (Rle_dec _ _); lra. }
    do 2 (split; [reflexivity|]). split; [left; discriminate|]. split; [|constructor]. constructor; [|constructor]. constructor; [|constructor]. cbn [op_ok op_small]. split.
    + split; [split; [reflexivity|constructor; [cbn; lia|constructor]]|lra].
    + unfold small. cbn. split; nra.
Qed.

(** OPT_CONVERGED says nothing about the problem's linear constraints: here the start satisfies them and all limits,
    getClosestFeasiblePoint moves it off, and the run converges without a step. *)
Theorem C133_linear_refuted :
  exists (lib : library) F P c x box s,
    prob_ok 100 0 F x /\ params_ok P /\ honest 100 0 0 lib /\ (forall i, able 100 lib i) /\ length x = length (f_vars F) /\ f_vars F <> [] /\
    In c (f_lin F) /\ fst c = false /\ aff_value (snd c) x = 0 /\ (forall i, (i < length x)%nat -> nth i (f_lb F) 0 <= nth i x 0 <= nth i (f_ub F) 0) /\
    run_sqp 100 lib F P (fun u : unit => u) (fun u => (u, 0)) 2 x box tt = Ok (Some (OPT_CONVERGED, s)) /\
    ocnt_tolerance P < Rabs (aff_value (snd c) (o_x s)).
Proof.
  destruct (C133_libraries 100) as (r & _ & _ & (Hr & Ha) & _). destruct (stays _ Hr Ha 1) as (s & Es & Ex). exists (Osqp 0 false r), (ex_line [ex_five]), ex_params, ex_five, [5], (1 / 10), s.
  assert (V : forall a, aff_value (snd ex_five) [a] = a - 5) by (intros a; unfold ex_five; cbn [snd]; rewrite aff_value_sum; cbn; rewrite rsum_cons, rsum_nil; cbn; lra).
  split; [apply line_ok; constructor; [|constructor]; split; [split; [reflexivity|constructor; [cbn; lia|constructor]]|unfold small; cbn; lra]|]. split; [exact ex_params_ok|]. split; [exact Hr|]. split; [exact Ha|].
  split; [reflexivity|]. split; [discriminate|]. split; [left; reflexivity|]. split; [reflexivity|]. split; [rewrite V; lra|]. split; [intros i Hi; cbn in Hi; assert (i = 0%nat) as -> by lia; cbn; lra|].
  split; [exact Es|]. rewrite Ex, V. destruct ex_values as (_ & _ & _ & _ & _ & ->). unfold Rabs. destruct (Rcase_abs _); lra.
Qed.
Print Assumptions C133_linear_refuted.
