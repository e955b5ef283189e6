(** * A whole run on a joint space problem (C135) *)
From Coq Require Import List Bool Arith Reals Lra Lia.
From Verif Require Import Num NumFacts RSums Common IfoptModel IfoptProofs NodesModel JointCntModel JointCntProps ExprsModel ExprsProps QpModel QpSpec QpProofs QpProps QpCaseProps OsqpModel OsqpProps
  SqpRunModel SqpRunSpec SqpRunProofs SqpRunProps JointRunModel JointRunSpec JointRunProofs.
From Verif Require SqpModel SqpProofs SqpExamples RunSpec RunProps.
Import ListNotations.
Local Open Scope R_scope.

Local Notation best s := (SqpModel.best (SqpModel.res s)).
Local Notation mu s := (SqpModel.merit_coeffs (SqpModel.res s)).
Local Notation x_of s := (SqpModel.p_vars s).

(** ** Putting the problem together *)
Lemma all_positive (coeffs : list R) : Forall (fun w => 0 < w) coeffs -> forallb positive coeffs = true.
Proof. intros F. apply forallb_forall. rewrite Forall_forall in F. intros w Hw. unfold positive. apply Rltb_true. change (@nzero R R_Num) with 0. apply F, Hw. Qed.
Lemma all_eq (bs : list (bnd R)) : Forall (fun b => type_of b = Equality) bs -> forallb is_eq bs = true.
Proof. intros F. apply forallb_forall. rewrite Forall_forall in F. intros b Hb. unfold is_eq. rewrite F by exact Hb. reflexivity. Qed.
Lemma all_ineq (bs : list (bnd R)) : Forall (fun b => type_of b = LowerBound \/ type_of b = UpperBound) bs -> forallb is_ineq bs = true.
Proof. intros F. apply forallb_forall. rewrite Forall_forall in F. intros b Hb. unfold is_ineq. destruct (F b Hb) as [->| ->]; reflexivity. Qed.
Lemma split_bounds m bs (coeffs : list R) i rb ri rc (P : bnd R -> Prop) : split_loop bs i coeffs = Val (rb, ri, rc) ->
  Forall (fun b => match type_of b with RangeBound => P {| b_lo := b_lo b; b_hi := None |} /\ P {| b_lo := None; b_hi := b_hi b |} | _ => P b end) bs -> m = m :> nat -> Forall P rb.
Proof.
  revert i rb ri rc. induction bs as [|b bs IH]; intros i rb ri rc E F Hm; cbn [split_loop] in E; [injection E as <- <- <-; constructor|].
  destruct (nth_error coeffs i); [|discriminate]. destruct (split_loop bs (S i) coeffs) as [[[rb' ri'] rc']| |] eqn:El; try discriminate. cbn [rbind] in E. inversion_clear F as [|? ? Hb F']. specialize (IH _ _ _ _ El F' Hm).
  destruct (type_of b); injection E as <- <- <-; constructor; try assumption; try (constructor; [|assumption]); tauto.
Qed.
Lemma request_accepted p rq : acceptable rq -> exists p', add_request p rq = Val p'.
Proof.
  intros (Pos & H). destruct rq as [q r]. unfold add_request. cbn [fst snd] in *. pose proof (all_positive _ Pos) as Pb.
  assert (Equal : forall t, r <> AsCost PHinge -> Forall (fun b => type_of b = Equality) (cm_bounds (tm_at t (q_x p))) -> exists p', match r with AsConstraint => Val (add_constraint p t) | AsCost k => add_cost p t k end = Val p').
  { intros t Hr F. apply all_eq in F. destruct r as [|[| |]]; [eexists; reflexivity| | |congruence]; unfold add_cost; rewrite F; eexists; reflexivity. }
  destruct q as [k targets vs coeffs|targets v coeffs|bs v coeffs split]; cbn [request_set coeffs_of] in *.
  - destruct H as (Ht & Hv & Hc & Hr). assert (E : exists c, jcnt_new k targets vs coeffs = Val c).
    { unfold jcnt_new. rewrite Pb. destruct (Nat.ltb_spec (length vs) (min_vars k)); [lia|]. destruct (Nat.eqb_spec (length targets) 0) as [Z|Z]; [destruct targets; [congruence|discriminate]|]. cbn [negb].
      destruct (Nat.eqb_spec (length coeffs) (length targets)) as [L|L]; [eexists; reflexivity|]. destruct Hc as [Hc|Hc]; [congruence|]. destruct coeffs as [|w [|w' ws]]; [eexists; reflexivity|eexists; reflexivity|cbn in Hc; lia]. }
    destruct E as (c & E). rewrite E. cbn [rbind]. apply Equal; [exact Hr|]. cbn [diff_set tm_at cm_bounds]. apply jcnt_new_inv in E as (_ & _ & _ & _ & _ & -> & _).
    apply Forall_forall. intros b Hb. apply in_blocks in Hb as (i & j & _ & _ & ->). apply type_at.
  - destruct H as (Ht & Hne & Hc & Hr). unfold jpos_target. rewrite Pb. destruct (Nat.eqb_spec (length targets) 0) as [Z|Z]; [destruct targets; [congruence|discriminate]|]. cbn [negb].
    assert (L : length match coeffs with [c] => repeat c (length targets) | _ => coeffs end = length targets).
    { destruct coeffs as [|w [|w' ws]]; [congruence|apply repeat_length|]. destruct Hc as [Hc|Hc]; [exact Hc|cbn in Hc; lia]. }
    rewrite L, Nat.eqb_refl. cbn [negb rbind]. apply Equal; [exact Hr|]. cbn [pos_set tm_at cm_bounds jp_bounds]. apply Forall_map, Forall_forall. intros t _. apply type_at.
  - destruct H as (Hb & Hc & F). unfold jpos_bounds. rewrite Pb. destruct (Nat.eqb_spec (length bs) 0) as [Z|Z]; [destruct bs; [congruence|discriminate]|]. cbn [negb].
    assert (Q : exists c, match coeffs with [] => jpos_finish bs v coeffs split (repeat none_ (length bs)) | [c] => jpos_finish bs v coeffs split (repeat c (length bs)) | _ => if (length coeffs =? length bs)%nat then jpos_finish bs v coeffs split coeffs else Throws end = Val c /\
      (split = false -> jp_bounds c = bs) /\ (split = true -> forall P : bnd R -> Prop, Forall (fun b => match type_of b with RangeBound => P {| b_lo := b_lo b; b_hi := None |} /\ P {| b_lo := None; b_hi := b_hi b |} | _ => P b end) bs -> Forall P (jp_bounds c))).
    { assert (G : forall cs, exists c, jpos_finish bs v coeffs split cs = Val c /\ (split = false -> jp_bounds c = bs) /\ (split = true -> forall P : bnd R -> Prop, Forall (fun b => match type_of b with RangeBound => P {| b_lo := b_lo b; b_hi := None |} /\ P {| b_lo := None; b_hi := b_hi b |} | _ => P b end) bs -> Forall P (jp_bounds c))).
      { intros cs. unfold jpos_finish. destruct split; [|eexists; split; [reflexivity|split; [reflexivity|discriminate]]].
        destruct (split_loop_spec bs 0 coeffs) as (rb & ri & rc & E & _); [lia|]. rewrite E. cbn [rbind fst snd]. eexists. split; [reflexivity|]. split; [discriminate|]. cbn [jp_bounds]. intros _ P FP. apply (split_bounds 0 bs coeffs 0 rb ri rc P E FP eq_refl). }
      destruct coeffs as [|w [|w' ws]]; [apply G|apply G|]. replace (length (w :: w' :: ws) =? length bs)%nat with true; [apply G|]. symmetry. apply Nat.eqb_eq. destruct split; [exact Hc|]. destruct Hc as [Hc|Hc]; [exact Hc|cbn in Hc; lia]. }
    destruct Q as (c & E & Q1 & Q2). rewrite E. cbn [rbind]. 
    destruct r as [|k]; [eexists; reflexivity|]. unfold add_cost. cbn [pos_set tm_at cm_bounds].
    destruct k.
    + replace (forallb is_eq (jp_bounds c)) with true; [eexists; reflexivity|]. symmetry. apply all_eq. destruct split; [|rewrite Q1 by reflexivity; exact F]. apply Q2; [reflexivity|]. eapply Forall_impl; [|exact F]. cbn beta. intros b Tb. rewrite Tb. reflexivity.
    + replace (forallb is_eq (jp_bounds c)) with true; [eexists; reflexivity|]. symmetry. apply all_eq. destruct split; [|rewrite Q1 by reflexivity; exact F]. apply Q2; [reflexivity|]. eapply Forall_impl; [|exact F]. cbn beta. intros b Tb. rewrite Tb. reflexivity.
    + replace (forallb is_ineq (jp_bounds c)) with true; [eexists; reflexivity|]. symmetry. apply all_ineq. destruct split.
      * apply Q2; [reflexivity|]. eapply Forall_impl; [|exact F]. cbn beta. intros b [Tb|[Tb|(Tb & _)]]; rewrite Tb; [auto|auto|]. unfold type_of in Tb |- *. destruct (b_lo b); destruct (b_hi b); try discriminate. cbn. auto.
      * rewrite Q1 by reflexivity. eapply Forall_impl; [|exact F]. cbn beta. intros b [Tb|[Tb|(_ & [=])]]; auto.
Qed.
(** ** C135 *)
Theorem C135_accepted :
  forall (x : list R) (bs : list (bnd R)) l, Forall acceptable l -> exists p, joint_problem x bs l = Val p.
Proof.
  intros x bs l F. unfold joint_problem. enough (G : forall p, exists p', add_requests p l = Val p') by (destruct (G (qp_new x bs)) as (p' & ->); eexists; reflexivity).
  induction F as [|rq l H F IH]; intros p; [eexists; reflexivity|]. cbn [add_requests]. destruct (request_accepted p rq H) as (p' & ->). cbn [rbind]. apply IH.
Qed.
Print Assumptions C135_accepted.

(** A run meets no failed assertion or exception and ends, whatever the library answers and the callbacks and the clock do. *)
Theorem C135_ends :
  forall (C : Type) L (x : list R) bs l p P (callback : C -> _) clock (c : C), joint_problem x bs l = Val p -> x <> [] -> length bs = length x -> well_put (length x) l ->
    accepts L -> sized L -> 0 <= SqpModel.trust_shrink_ratio P < 1 -> 0 < SqpModel.min_trust_box_size P ->
    exists K s q, w_state (SqpModel.world s) = Ok q /\ forall fuel pfuel, (K <= fuel)%nat -> (K <= pfuel)%nat -> run_solve L p P callback clock fuel pfuel c = Ok s.
Proof.
  intros C L x bs l p P callback clock c Ep Hn Lb Hl A B M1 M2. pose proof (joint_ok x bs l p Ep Lb Hl Hn) as Ok0.
  destruct (C134_ends C L p P callback clock c Ok0 A B M1 M2) as (K & s & H). exists K, s.
  destruct (C134_no_abort C L p P callback clock K K c Ok0 A B) as [E|(s' & q1 & q2 & E & W)]; rewrite (H K K (le_n _) (le_n _)) in E; [discriminate|]. injection E as <-. exists (q1, q2). split; [exact W|exact H].
Qed.
Print Assumptions C135_ends.

(** What is reported belongs to the variables the problem is left with: the violations are the sums of the distances of the joints from
    what is asked for; if the run converged, every joint is closer than the tolerance to what every constraint asks for. *)
Lemma asks_nonneg x q : Forall (fun p => 0 <= snd p) (asks x q).
Proof.
  destruct q; cbn [asks].
  - apply Forall_forall. intros p Hp. apply in_flat_map in Hp as (i & _ & Hp). apply in_map_iff in Hp as (j & <- & _). apply Rabs_pos.
  - apply Forall_map, Forall_forall. intros j _. apply Rabs_pos.
  - apply Forall_map, Forall_forall. intros j _. apply dist_nonneg.
Qed.
Lemma total_met x q tol : total (fun _ d => d) x q < tol -> met tol x q.
Proof.
  unfold total, met. pose proof (asks_nonneg x q) as N. revert tol. induction N as [|p l Hp N IH]; intros tol H; [constructor|]. rewrite rsum_cons in H.
  assert (0 <= rsum (fun p => snd p) l) by (apply rsum_nonneg; rewrite Forall_forall in N; exact N). constructor; [lra|]. apply IH. lra.
Qed.
Theorem C135_reported :
  forall (C : Type) L (x : list R) bs l p P (callback : C -> _) clock fuel pfuel (c : C) s, joint_problem x bs l = Val p -> x <> [] -> length bs = length x -> well_put (length x) l ->
    accepts L -> sized L -> run_solve L p P callback clock fuel pfuel c = Ok s ->
    length (x_of s) = length x /\ x_of s = firstn (length x) (SqpModel.e_vars (best s)) /\
    SqpModel.e_viols (best s) = map (total (fun _ d => d) (x_of s)) (constraints l) /\
    SqpModel.e_merit (best s) = reported_merit l (mu s) (x_of s) /\
    (SqpModel.status s = SqpModel.kConverged -> Forall (met (SqpModel.cnt_tolerance P) (x_of s)) (constraints l)).
Proof.
  intros C L x bs l p P callback clock fuel pfuel c s Ep Hn Lb Hl A B E. pose proof (joint_ok x bs l p Ep Lb Hl Hn) as Ok0. destruct (joint_problem_ok x bs l p Ep Lb Hl) as (_ & _ & Ex & _).
  destruct (C134_reported C L p P callback clock fuel pfuel c s Ok0 A B E) as (R1 & R2 & R3 & R4 & _ & R6 & R7). rewrite Ex in R1, R2. destruct (joint_viols x bs l p Ep Lb Hl (x_of s) R2) as (V & _).
  split; [exact R2|]. split; [exact R1|]. split; [rewrite R4; exact V|]. split; [rewrite R6; apply (joint_exact x bs l p Ep Lb Hl _ _ R2)|].
  intros Es. specialize (R7 Es). assert (F : Forall (fun v => v < SqpModel.cnt_tolerance P) (map (exact_viol (x_of s)) (merits (q_src p)))) by (apply Forall_map; exact R7).
  rewrite V, Forall_map in F. eapply Forall_impl; [|exact F]. intros q Hq. apply total_met, Hq.
Qed.
Print Assumptions C135_reported.

Theorem C135_limits :
  forall (C : Type) L (x : list R) bs l p P (callback : C -> _) clock fuel pfuel (c : C) s eps delta, joint_problem x bs l = Val p -> x <> [] -> length bs = length x -> well_put (length x) l ->
    accepts L -> sized L -> 0 <= eps -> honest eps delta L -> run_solve L p P callback clock fuel pfuel c = Ok s ->
    x_of s = x \/ Forall2 (fun v b => (forall l, b_lo b = Some l -> l - eps <= v) /\ (forall u, b_hi b = Some u -> v <= u + eps)) (x_of s) bs.
Proof.
  intros C L x bs l p P callback clock fuel pfuel c s eps delta Ep Hn Lb Hl A B He Ho E. pose proof (joint_ok x bs l p Ep Lb Hl Hn) as Ok0. destruct (joint_problem_ok x bs l p Ep Lb Hl) as (_ & _ & Ex & Eb & _).
  pose proof (C134_limits C L p P callback clock fuel pfuel c s eps delta Ok0 A B He Ho E) as K. rewrite Ex in K. unfold keeps in K. rewrite Eb in K. exact K.
Qed.
Print Assumptions C135_limits.

(** Joint terms are convex, so a run whose last act was a QP that found nothing better has found the best point there is, up to the
    tolerances of the library and the solver and up to what the reported merit misses by ignoring coefficients. *)
Theorem C135_best :
  forall (C : Type) L (x : list R) bs l p P (callback : C -> _) clock fuel pfuel (c : C) s t eps delta, joint_problem x bs l = Val p -> x <> [] -> length bs = length x -> well_put (length x) l -> Forall weighty l ->
    accepts L -> sized L -> 0 <= eps -> honest eps delta L -> / 10 ^ 7 <= SqpModel.initial_merit_error_coeff P -> 1 <= SqpModel.merit_coeff_increase_ratio P ->
    Forall2 (fun v b => inside b v) x bs -> run_solve L p P callback clock fuel pfuel c = Ok s -> SqpModel.trace s = SqpModel.EvCallback true :: t ->
    Forall2 (fun v b => inside b v) (x_of s) bs ->
    SqpModel.status s = SqpModel.kConverged /\
    exists box, SqpModel.box_size (SqpModel.res s) = repeat box (length x) /\
      forall r y, 0 < box <= r -> Forall2 (fun v b => inside b v) y bs -> (forall i, (i < length x)%nat -> Rabs (nth i y 0 - nth i (x_of s) 0) <= r) ->
        merit l (mu s) (x_of s) < merit l (mu s) y +
          (slop eps delta p (mu s) (x_of s) box + Rmax (SqpModel.min_approx_improve P) (SqpModel.min_approx_improve_frac P * Rmax (Rabs (reported_merit l (mu s) (x_of s))) (1 / 10 ^ 12)) +
           (merit l (mu s) (x_of s) - reported_merit l (mu s) (x_of s))) * (r / box).
Proof.
  intros C L x bs l p P callback clock fuel pfuel c s t eps delta Ep Hn Lb Hl Hw A B He Ho M1 M2 Hin E Et Hx.
  pose proof (joint_ok x bs l p Ep Lb Hl Hn) as Ok0. pose proof (joint_weights x bs l p Ep Lb Hl Hw) as Wk. destruct (joint_problem_ok x bs l p Ep Lb Hl) as (_ & _ & Ex & Eb & _).
  assert (Hk : keeps eps p (q_x p)).
  { unfold keeps. rewrite Ex, Eb. clear -Hin He. induction Hin as [|v b vs bs' (I1 & I2) Hin IH]; constructor; [|exact IH]. split; [intros lo El; specialize (I1 lo El); lra|intros u Eu; specialize (I2 u Eu); lra]. }
  destruct (C134_stationary C L p P callback clock fuel pfuel c s t eps delta Ok0 Wk A B He Ho M1 M2 Hk E Et) as (Es & box & Ebox & Q). split; [exact Es|]. exists box. rewrite Ex in Ebox. split; [exact Ebox|].
  destruct (C135_reported C L x bs l p P callback clock fuel pfuel c s Ep Hn Lb Hl A B E) as (Lx & _). rewrite (joint_exact x bs l p Ep Lb Hl _ _ Lx) in Q.
  destruct (run_ok L p eps delta P callback clock fuel pfuel c s Ok0 A B E) as (K & _ & _). assert (Mu : Forall (fun m => 0 <= m) (mu s)).
  { pose proof (co_low _ _ _ _ _ _ _ _ K (conj M1 M2)) as F. eapply Forall_impl; [|exact F]. cbn beta. intros m Hm. assert (0 < / 10 ^ 7) by (apply Rinv_0_lt_compat; lra). lra. }
  intros r y (Hb & Hr) Yb Yd. assert (Ly : length y = length (x_of s)) by (rewrite Lx, <- Lb; clear -Yb; induction Yb; cbn; congruence).
  set (T := box / r). assert (HT : 0 < T <= 1).
  { unfold T. split; [apply Rdiv_lt_0_compat; lra|]. apply (Rmult_le_reg_r r); [lra|]. unfold Rdiv. rewrite Rmult_assoc, Rinv_l by lra. lra. }
  assert (HTD : T * r = box) by (unfold T; field; lra).
  assert (Hz : region p (x_of s) box (RunSpec.towards T (x_of s) y)).
  { split; [|split; [apply RunProps.towards_len; exact Ly|]].
    - rewrite Eb. clear -Hx Yb HT. revert y Yb. induction Hx as [|a b x bs Ha Hx IH]; intros y Y1; inversion Y1 as [|v b' y' bs' Hv Y2 E1 E2]; subst; [constructor|]. cbn [RunSpec.towards combine map fst snd]. constructor; [|apply IH, Y2].
      destruct Ha as (A1 & A2). destruct Hv as (B1 & B2). split; [intros l El; specialize (A1 l El); specialize (B1 l El); nra|intros u Eu; specialize (A2 u Eu); specialize (B2 u Eu); nra].
    - intros i Hi. rewrite RunProps.towards_nth by assumption. replace (nth i (x_of s) 0 + T * (nth i y 0 - nth i (x_of s) 0) - nth i (x_of s) 0) with (T * (nth i y 0 - nth i (x_of s) 0)) by ring.
      rewrite Rabs_mult, (Rabs_right T) by lra. rewrite <- HTD. apply Rmult_le_compat_l; [lra|apply Yd]. lia. }
  specialize (Q _ Hz). rewrite (joint_convex x bs l p Ep Lb Hl) in Q by (rewrite ?RunProps.towards_len by exact Ly; exact Lx).
  pose proof (merit_convex x bs l p Ep Lb Hl (mu s) (x_of s) Lx Mu y T Ly ltac:(lra)) as Cv.
  set (W := merit l (mu s)) in *. set (R0 := reported_merit l (mu s) (x_of s)) in *. set (tol := slop _ _ _ _ _ _ + _) in *. assert (Kt : R0 < W (RunSpec.towards T (x_of s) y) + tol) by (unfold tol; lra).
  assert (HDb : r / box = / T) by (unfold T; field; lra). rewrite HDb. apply (Rmult_lt_reg_l T); [lra|]. replace (T * (W y + (tol + (W (x_of s) - R0)) * / T)) with (T * W y + (tol + (W (x_of s) - R0))) by (field; lra). lra.
Qed.
Print Assumptions C135_best.

(** With coefficients one for everything but squared costs the last part vanishes. *)
Theorem C135_unit :
  forall l mu (x : list R), Forall (fun q => coeffs_of q = [1]) (others l ++ constraints l) -> merit l mu x = reported_merit l mu x.
Proof.
  intros l m x F. assert (G : forall q, coeffs_of q = [1] -> total (fun w d => w * d) x q = total (fun _ d => d) x q).
  { intros q E. unfold total. apply rsum_ext. intros p Hp. replace (fst p) with 1; [ring|]. destruct q; cbn [asks coeffs_of] in *; subst; [apply in_flat_map in Hp as (i & _ & Hp)| |]; apply in_map_iff in Hp as (j & <- & _); reflexivity. }
  apply Forall_app in F as (F1 & F2). unfold merit, reported_merit. f_equal; [f_equal|].
  - apply rsum_ext. intros q Hq. rewrite Forall_forall in F1. apply G, F1, Hq.
  - apply rsum_ext. intros (m1, q) Hq. rewrite Forall_forall in F2. cbn [fst snd]. f_equal. apply G, F2. eapply in_combine_r, Hq.
Qed.
Print Assumptions C135_unit.

(** one joint at 1/20 that must not be above zero *)
Definition one_joint : list (request * role) := [(RBounds [at_most 0] {| v_name := 0%nat; v_index := 0%nat; v_vals := [1 / 20]; v_bnds := [free] |} [1] false, AsConstraint)].
Definition one_set : term R := pos_set {| jp_var := {| v_name := 0%nat; v_index := 0%nat; v_vals := [1 / 20]; v_bnds := [free] |}; jp_index := [0%nat]; jp_coeffs := [1]; jp_bounds := [at_most 0] |}.
Lemma one_finish : jpos_bounds [at_most 0] {| v_name := 0%nat; v_index := 0%nat; v_vals := [1 / 20]; v_bnds := [free] |} [1] false = Val {| jp_var := {| v_name := 0%nat; v_index := 0%nat; v_vals := [1 / 20]; v_bnds := [free] |}; jp_index := [0%nat]; jp_coeffs := [1]; jp_bounds := [at_most 0] |}.
Proof. unfold jpos_bounds. rewrite (all_positive [1]) by (constructor; [lra|constructor]). reflexivity. Qed.
Lemma one_problem : exists p, joint_problem [1 / 20] [free] one_joint = Val p /\ q_x p = [1 / 20] /\ q_src p = sets [] [one_set] /\ q_bnds p = [free] /\ q_init p = true.
Proof.
  unfold joint_problem, one_joint. cbn [add_requests]. unfold add_request. cbn [fst snd request_set]. rewrite one_finish. cbn [rbind]. eexists. split; [reflexivity|]. split; [reflexivity|]. split; [reflexivity|]. split; reflexivity.
Qed.
Lemma one_put : well_put 1 one_joint.
Proof.
  constructor; [|constructor]. split; [split; [reflexivity|split; [cbn; lia|constructor; [|constructor]]]|constructor; [|constructor]; split; discriminate].
  intros l u [=].
Qed.
Example C135_run : exists p s t, joint_problem [1 / 20] [free] one_joint = Val p /\ run_solve ex_lib p (SqpExamples.defaults (T := R) 10 2) (fun c _ => (c, [])) (fun c => (c, 0)) 1 1 tt = Ok s /\
  SqpModel.status s = SqpModel.kConverged /\ x_of s = [0] /\ SqpModel.box_size (SqpModel.res s) = [1 / 5] /\ SqpModel.trace s = SqpModel.EvCallback true :: t.
Proof.
  destruct one_problem as (p & Ep & K). exists p. destruct (ex_runs p one_set K) as (s & t & E); [|intros a; reflexivity|exists s, t; split; [exact Ep|exact E]].
  apply (joint_ok [1 / 20] [free] one_joint p Ep eq_refl one_put). discriminate.
Qed.
Example C135_meets : Forall acceptable one_joint /\ well_put (length [1 / 20]) one_joint /\ Forall weighty one_joint /\ Forall2 (fun v b => inside b v) [1 / 20] [free] /\ Forall2 (fun v b => inside b v) [0] [free] /\
  Forall (fun q => coeffs_of q = [1]) (others one_joint ++ constraints one_joint) /\ accepts ex_lib /\ sized ex_lib /\ honest 0 0 ex_lib.
Proof.
  split; [constructor; [|constructor]; split; [constructor; [lra|constructor]|split; [discriminate|split; [left; reflexivity|constructor; [exact I|constructor]]]]|].
  split; [exact one_put|]. split; [constructor; [|constructor]; constructor; [lra|constructor]|]. split; [constructor; [split; intros ? [=]|constructor]|]. split; [constructor; [split; intros ? [=]|constructor]|].
  split; [constructor; [reflexivity|constructor]|]. split; [intros i; reflexivity|]. split; [exact ex_sized|exact ex_honest].
Qed.
(** two positions of one joint: the first held at one, velocities kept small, the second at most two *)
Definition two_vars : list (var R) := [{| v_name := 0%nat; v_index := 0%nat; v_vals := [1]; v_bnds := [free] |}; {| v_name := 1%nat; v_index := 1%nat; v_vals := [3]; v_bnds := [free] |}].
Definition two_positions : list (request * role) :=
  [(RTarget [1] (nth 0 two_vars {| v_name := 0%nat; v_index := 0%nat; v_vals := []; v_bnds := [] |}) [1], AsConstraint); (RDiff Vel [0] two_vars [], AsCost PSquared);
   (RBounds [{| b_lo := Some 0; b_hi := Some 2 |}] (nth 1 two_vars {| v_name := 0%nat; v_index := 0%nat; v_vals := []; v_bnds := [] |}) [7] true, AsCost PHinge)].
Example C135_two : Forall acceptable two_positions /\ well_put (length [1; 3]) two_positions /\ Forall weighty two_positions /\ merit two_positions [10] [1; 3] = 27 /\ reported_merit two_positions [10] [1; 3] = 21 /\
  map (total (fun _ d => d) [1; 3]) (constraints two_positions) = [0].
Proof.
  assert (T1 : type_of {| b_lo := Some 0; b_hi := Some 2 |} = RangeBound) by (unfold type_of; cbn; rcase; try reflexivity; exfalso; rewrite Rabs_right in H by lra; change (Pos.to_nat 8) with 8%nat in H; cbn [pow] in H; lra).
  split.
  { constructor; [|constructor; [|constructor; [|constructor]]]; (split; [cbn [fst coeffs_of]; auto; try (constructor; [lra|constructor])|]); cbn.
    - split; [discriminate|]. split; [discriminate|]. split; [left; reflexivity|discriminate].
    - split; [discriminate|]. split; [lia|]. split; [right; lia|discriminate].
    - split; [discriminate|]. split; [reflexivity|]. constructor; [|constructor]. right. right. split; [exact T1|reflexivity]. }
  split.
  { constructor; [|constructor; [|constructor; [|constructor]]]; (split; [|try exact I]); cbn.
    - split; [reflexivity|lia].
    - split; [constructor; [|constructor; [|constructor]]; (split; [reflexivity|cbn; lia])|]. intros t Ht. cbn in Ht. replace t with 0%nat by lia. cbn. lia.
    - split; [reflexivity|]. split; [cbn; lia|]. constructor; [|constructor]. intros l u [= <-] [= <-]. lra. }
  split; [constructor; [|constructor; [|constructor; [|constructor]]]; cbn; [constructor; [lra|constructor]|exact I|constructor; [lra|constructor]]|].
  assert (D : dist {| b_lo := Some 0; b_hi := Some 2 |} 3 = 1) by (unfold dist; cbn [b_lo b_hi]; rewrite (Rmax_right (0 - 3)), Rmax_right by lra; lra).
  assert (A0 : Rabs (1 - 1) = 0) by (replace (1 - 1) with 0 by ring; apply Rabs_R0).
  assert (A2 : Rabs (3 - 1 - 0) = 2) by (replace (3 - 1 - 0) with 2 by ring; apply Rabs_right; lra).
  unfold merit, reported_merit, two_positions, total. cbn [squares others constraints flat_map fst snd app combine map].
  unfold rsum. cbn [map asks seq length flat_map app fst snd nth weight v_index two_vars Nat.add]. cbn - [Rabs Rmult Rplus Rminus dist].
  rewrite ?D, ?A0, ?A2. split; [|split]; [| |f_equal]; lra.
Qed.

(** A constraint that keeps a range in one row is accepted by its constructor and by addConstraintSet(), but cannot be solved for:
    the first convexify() throws. *)
Definition kept_range (v : R) : list (request * role) := [(RBounds [{| b_lo := Some 0; b_hi := Some 2 |}] {| v_name := 0%nat; v_index := 0%nat; v_vals := [v]; v_bnds := [free] |} [1] false, AsConstraint)].
Theorem C135_range_refuted :
  exists (x : list R) bs l p, Forall acceptable l /\ Forall (fun rq => placed_in (length x) (fst rq)) l /\ joint_problem x bs l = Val p /\ convexify sqrt p = Throws.
Proof.
  assert (T1 : type_of {| b_lo := Some 0; b_hi := Some 2 |} = RangeBound) by (unfold type_of; cbn; rcase; try reflexivity; exfalso; rewrite Rabs_right in H by lra; change (Pos.to_nat 8) with 8%nat in H; cbn [pow] in H; lra).
  exists [1], [free], (kept_range 1). eexists. split.
  { constructor; [|constructor]. split; [cbn; constructor; [lra|constructor]|]. cbn. split; [discriminate|]. split; [left; reflexivity|]. constructor; [exact I|constructor]. }
  split; [constructor; [|constructor]; cbn; split; [reflexivity|]; split; [lia|]; constructor; [|constructor]; intros l u [= <-] [= <-]; lra|].
  split.
  - unfold joint_problem, kept_range. cbn [add_requests]. unfold add_request. cbn [fst snd request_set]. unfold jpos_bounds. rewrite (all_positive [1]) by (constructor; [lra|constructor]). reflexivity.
  - unfold convexify. cbn - [type_of]. unfold row_step. rewrite T1. reflexivity.
Qed.
Print Assumptions C135_range_refuted.
