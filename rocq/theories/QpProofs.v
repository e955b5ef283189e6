(** * Auxiliary lemmas about TrajOptQPProblem *)
From Coq Require Import List ZArith Bool Arith Reals Lra Lia.
From Verif Require Import Num NumFacts RSums IfoptModel IfoptProofs ExprsModel ExprsProps QpModel QpSpec.
Import ListNotations.
Local Open Scope R_scope.

(** ** The invariant of reachable states *)
Definition infos (ty : itype) (x : list R) (ts : list (term R)) : list (info R) := map (fun t => info_of ty (tm_at t x)) ts.
Definition pens (s : sources R) := s_hinge s ++ s_dhinge s ++ s_abs s ++ s_dabs s.
Definition all_terms (s : sources R) := objectives s ++ pens s ++ merits s.
Definition tables_at (s : sources R) (x : list R) : tables R :=
  {| i_obj := infos IObjective x (objectives s);
     i_pen := infos IHinge x (hinges s) ++ infos IAbsolute x (absolutes s);
     i_mer := infos IMerit x (merits s);
     n_obj := rows_at x (objectives s); n_pen := rows_at x (pens s); n_mer := rows_at x (merits s) |}.
Definition layout_of (s : sources R) (n : nat) (bs : list (bnd R)) : layout R :=
  {| l_obj := objectives s; l_pen := pens s; l_mer := merits s; l_dyn := existsb tm_dyn (all_terms s); l_n := n; l_vbnds := bs |}.
Definition sized_for (c : convex R) (t : tables R) (n : nat) : Prop :=
  length (c_const c) = (n_pen t + n_mer t)%nat /\ length (c_rowb c) = (n_pen t + n_mer t)%nat /\
  length (c_target c) = n_obj t /\ length (c_varb c) = n.
Definition wf_sources (s : sources R) : Prop :=
  Forall wf_term (s_sq s) /\ Forall wf_term (s_dsq s) /\ Forall wf_term (s_hinge s) /\ Forall wf_term (s_dhinge s) /\
  Forall wf_term (s_abs s) /\ Forall wf_term (s_dabs s) /\ Forall wf_term (s_cnt s) /\ Forall wf_term (s_dcnt s).
Lemma wf_all s : wf_sources s -> Forall wf_term (all_terms s).
Proof.
  intros (A & B & C & D & E & F & G & I). unfold all_terms, objectives, pens, merits. rewrite !Forall_app. tauto.
Qed.

Record inv (p : qp R) : Prop := {
  iv_bnds : length (q_bnds p) = length (q_x p);
  iv_src : wf_sources (q_src p);
  iv_lay : q_init p = true -> q_lay p = layout_of (q_src p) (length (q_x p)) (q_bnds p);
  iv_box : q_init p = true -> length (q_box p) = length (q_x p);
  iv_merit : q_init p = true -> length (q_merit p) = length (merits (q_src p));
  iv_ndyn : q_init p = true -> q_ndyn p = count_dyn (q_x p) (all_terms (q_src p));
  iv_tab : q_init p = true -> exists y, q_prev p = Some (count_dyn y (all_terms (q_src p))) /\
    q_tab p = tables_at (q_src p) y /\ sized_for (q_cvx p) (q_tab p) (length (q_x p))
}.

Lemma app_list_sum a b : list_sum (a ++ b) = (list_sum a + list_sum b)%nat.
Proof. induction a as [|x a IH]; [reflexivity|]. change (x + list_sum (a ++ b) = x + list_sum a + list_sum b)%nat. lia. Qed.
Lemma rows_at_app (x : list R) a b : rows_at x (a ++ b) = (rows_at x a + rows_at x b)%nat.
Proof. unfold rows_at. rewrite map_app. apply app_list_sum. Qed.

Lemma shape_info ty t x y : shape t x = shape t y -> info_of ty (tm_at t x) = info_of ty (tm_at t y).
Proof. unfold shape, info_of. intros [= A B C]. rewrite A, B, C. reflexivity. Qed.
Lemma shape_rows t (x y : list R) : shape t x = shape t y -> cm_rows (tm_at t x) = cm_rows (tm_at t y).
Proof. intros [= A _ _]. exact A. Qed.
Lemma rows_at_cons (x : list R) t ts : rows_at x (t :: ts) = (cm_rows (tm_at t x) + rows_at x ts)%nat.
Proof. reflexivity. Qed.
Lemma infos_shape ty ts x y : (forall t, In t ts -> shape t x = shape t y) -> infos ty x ts = infos ty y ts /\ rows_at x ts = rows_at y ts.
Proof.
  intros S. split.
  - apply map_ext_in. intros t Ht. apply shape_info, S, Ht.
  - induction ts as [|t ts IH]; [reflexivity|]. rewrite !rows_at_cons, (shape_rows t x y), IH; auto using in_eq, in_cons.
Qed.
Lemma tables_shape s x y : (forall t, In t (all_terms s) -> shape t x = shape t y) -> tables_at s x = tables_at s y.
Proof.
  intros S. unfold tables_at.
  assert (I : forall t, In t (all_terms s) <-> In t (objectives s) \/ In t (hinges s) \/ In t (absolutes s) \/ In t (merits s)).
  { intros t. unfold all_terms, hinges, absolutes, pens. rewrite !in_app_iff. tauto. }
  assert (P : pens s = hinges s ++ absolutes s) by (unfold pens, hinges, absolutes; now rewrite app_assoc).
  rewrite P, !rows_at_app.
  destruct (infos_shape IObjective (objectives s) x y) as [A A']; [intros t Ht; apply S, I; auto|].
  destruct (infos_shape IHinge (hinges s) x y) as [B B']; [intros t Ht; apply S, I; auto|].
  destruct (infos_shape IAbsolute (absolutes s) x y) as [C C']; [intros t Ht; apply S, I; auto|].
  destruct (infos_shape IMerit (merits s) x y) as [D D']; [intros t Ht; apply S, I; auto|].
  congruence.
Qed.
Lemma count_zero (x : list R) ts t : count_dyn x ts = 0%nat -> In t ts -> tm_dyn t = true -> tm_count t x = 0%nat.
Proof.
  unfold count_dyn. induction ts as [|u ts IH]; [intros _ []|]. intros H [E|I] D.
  - subst u. change ((if tm_dyn t then tm_count t x else 0) + list_sum (map (fun t => if tm_dyn t then tm_count t x else 0) ts) = 0)%nat in H.
    rewrite D in H. lia.
  - apply IH; auto. change ((if tm_dyn u then tm_count u x else 0) + list_sum (map (fun t => if tm_dyn t then tm_count t x else 0) ts) = 0)%nat in H. lia.
Qed.

Lemma refresh_infos init ty x y ts : Forall wf_term ts ->
  refresh init x ts (infos ty y ts) = infos ty x ts.
Proof.
  unfold refresh, infos. intros W. induction W as [|t ts W _ IH]; [reflexivity|]. cbn [map combine fst snd]. rewrite IH. f_equal.
  destruct (init && negb (tm_dyn t))%bool eqn:E; [|reflexivity]. apply andb_prop in E. destruct E as [_ E]. apply negb_true_iff in E.
  unfold wf_term in W. rewrite E in W. apply shape_info, W.
Qed.
Lemma refresh_app init x a b (ia ib : list (info R)) : length a = length ia -> refresh init x (a ++ b) (ia ++ ib) = refresh init x a ia ++ refresh init x b ib.
Proof. intros L. unfold refresh. rewrite combine_app by exact L. apply map_app. Qed.
Lemma refresh_blank x ts ty : refresh false x ts (map (fun _ => blank ty) ts) = infos ty x ts.
Proof. unfold refresh, infos. induction ts as [|t ts IH]; [reflexivity|]. cbn [map combine fst snd]. rewrite IH. reflexivity. Qed.

Definition early (p : qp R) : bool :=
  (q_init p && (negb (l_dyn (q_lay p)) || (match q_prev p with Some 0 => true | _ => false end && (q_ndyn p =? 0)%nat)))%bool.

Lemma update_init (p : qp R) : q_init (update p) = q_init p.
Proof. unfold update. destruct (_ && _)%bool; reflexivity. Qed.

(** update() brings the tables of a reachable state up to date. *)
Lemma update_tab (p : qp R) : inv p -> q_init p = true ->
  q_tab (update p) = tables_at (q_src p) (q_x p) /\ sized_for (q_cvx (update p)) (q_tab (update p)) (length (q_x p)) /\
  q_x (update p) = q_x p /\ q_bnds (update p) = q_bnds p /\ q_src (update p) = q_src p /\ q_lay (update p) = q_lay p /\
  q_box (update p) = q_box p /\ q_merit (update p) = q_merit p /\ q_ndyn (update p) = q_ndyn p /\
  exists y, q_prev (update p) = Some (count_dyn y (all_terms (q_src p))) /\ q_tab (update p) = tables_at (q_src p) y.
Proof.
  intros I H. destruct (iv_tab p I H) as (y & Hp & Ht & Hs). pose proof (iv_lay p I H) as Hl. pose proof (iv_ndyn p I H) as Hn.
  assert (W := wf_all _ (iv_src p I)). unfold update. fold (early p). destruct (early p) eqn:E.
  - assert (S : tables_at (q_src p) (q_x p) = tables_at (q_src p) y).
    { apply tables_shape. intros t Hin. pose proof (proj1 (Forall_forall _ _) W t Hin) as Wt. unfold wf_term in Wt.
      unfold early in E. rewrite H in E. cbn [andb] in E. apply orb_prop in E. destruct E as [E|E].
      - apply negb_true_iff in E. rewrite Hl in E. cbn [l_dyn layout_of] in E.
        destruct (tm_dyn t) eqn:D; [|apply Wt].
        assert (existsb tm_dyn (all_terms (q_src p)) = true) by (apply existsb_exists; eauto). congruence.
      - apply andb_prop in E. destruct E as [E1 E2]. apply Nat.eqb_eq in E2. rewrite Hp in E1. destruct (count_dyn y _) eqn:Ec; [|discriminate].
        destruct (tm_dyn t) eqn:D; [|apply Wt]. apply Wt; [eapply count_zero; eauto; congruence|eapply count_zero; eauto]. }
    rewrite Ht at 1. split; [auto|]. split; [exact Hs|]. repeat (split; [reflexivity|]). exists y. auto.
  - cbn [q_tab q_cvx q_x q_bnds q_src q_lay q_box q_merit q_ndyn q_prev]. rewrite Hl, Ht. cbn [l_obj l_pen l_mer l_n layout_of tables_at i_obj i_pen i_mer].
    assert (P : pens (q_src p) = hinges (q_src p) ++ absolutes (q_src p)) by (unfold pens, hinges, absolutes; now rewrite app_assoc).
    rewrite P. assert (Q : Forall wf_term (objectives (q_src p)) /\ Forall wf_term (hinges (q_src p)) /\ Forall wf_term (absolutes (q_src p)) /\ Forall wf_term (merits (q_src p))).
    { unfold all_terms in W. rewrite P, !Forall_app in W. tauto. }
    destruct Q as (Q1 & Q2 & Q3 & Q4).
    rewrite refresh_app by (unfold infos; now rewrite map_length). rewrite !refresh_infos by assumption.
    split; [unfold tables_at; rewrite P; reflexivity|].
    split; [unfold sized_for; cbn [c_const c_rowb c_target c_varb n_pen n_mer n_obj]; rewrite !repeat_length; auto|].
    repeat (split; [reflexivity|]). exists (q_x p). rewrite Hn. split; [reflexivity|]. unfold tables_at. rewrite P. reflexivity.
Qed.

Lemma setup_inv (p : qp R) : inv p -> q_init p = false -> inv (setup p) /\ q_tab (setup p) = tables_at (q_src p) (q_x p).
Proof.
  intros I H. unfold setup, update. cbn [q_init q_lay q_x q_tab q_prev q_ndyn]. rewrite H. cbn [andb].
  cbn [l_obj l_pen l_mer l_n i_obj i_pen i_mer q_bnds q_src q_box q_merit q_cvx q_x q_init q_ndyn q_prev q_lay q_tab].
  assert (E : refresh false (q_x p) (s_hinge (q_src p) ++ s_dhinge (q_src p) ++ s_abs (q_src p) ++ s_dabs (q_src p))
    (map (fun _ => blank IHinge) (s_hinge (q_src p) ++ s_dhinge (q_src p)) ++ map (fun _ => blank IAbsolute) (s_abs (q_src p) ++ s_dabs (q_src p))) =
    infos IHinge (q_x p) (hinges (q_src p)) ++ infos IAbsolute (q_x p) (absolutes (q_src p))).
  { rewrite app_assoc. rewrite refresh_app by (now rewrite map_length). rewrite !refresh_blank. reflexivity. }
  rewrite E, !refresh_blank.
  split; [|reflexivity].
  constructor; cbn [q_x q_bnds q_src q_init q_lay q_box q_merit q_ndyn q_prev q_tab q_cvx].
  - apply (iv_bnds p I).
  - apply (iv_src p I).
  - reflexivity.
  - intros _. apply repeat_length.
  - intros _. apply repeat_length.
  - reflexivity.
  - intros _. exists (q_x p). split; [reflexivity|]. split; [reflexivity|].
    unfold sized_for. cbn [c_const c_rowb c_target c_varb n_pen n_mer n_obj]. rewrite !repeat_length. auto.
Qed.

(** ** The loop over the constraint sets *)
Definition signs (r : crow) : list R := match slack_signs (type_of (r_bnd r)) with Some s => s | None => [] end.
Definition rconst (x0 : list R) (r : crow) : R := r_val r - srow_dot (r_jac r) x0.
(** [l] are rows with their merit coefficients *)
Fixpoint placed (n off : nat) (l : list (R * crow)) : list (srow R) :=
  match l with
  | [] => []
  | mr :: l => (thr_row (r_jac (snd mr)) ++ combine (seq (n + off) (length (signs (snd mr)))) (signs (snd mr))) :: placed n (off + length (signs (snd mr))) l
  end.
Definition slack_costs (l : list (R * crow)) : list R := flat_map (fun mr => map (fun _ => fst mr * r_w (snd mr)) (signs (snd mr))) l.
Definition extend (n : nat) (x0 : list R) (a : acc R) (l : list (R * crow)) : acc R :=
  {| a_rows := a_rows a ++ placed n (length (a_slack a)) l;
     a_const := a_const a ++ map (fun mr => rconst x0 (snd mr)) l;
     a_bnds := a_bnds a ++ map (fun mr => shift (r_bnd (snd mr)) (rconst x0 (snd mr))) l;
     a_slack := a_slack a ++ slack_costs l |}.
Lemma placed_app n l l' off : placed n off (l ++ l') = placed n off l ++ placed n (off + length (slack_costs l)) l'.
Proof.
  revert off. induction l as [|mr l IH]; intros off; cbn [placed app slack_costs flat_map length].
  - rewrite Nat.add_0_r. reflexivity.
  - rewrite IH. fold (slack_costs l). rewrite app_length, map_length, Nat.add_assoc. reflexivity.
Qed.
Lemma placed_length n l off : length (placed n off l) = length l.
Proof. revert off. induction l; intros; cbn; auto. Qed.
Lemma extend_app n x0 a l l' : extend n x0 (extend n x0 a l) l' = extend n x0 a (l ++ l').
Proof.
  unfold extend. cbn [a_rows a_const a_bnds a_slack]. rewrite app_length, placed_app, !map_app.
  unfold slack_costs. rewrite flat_map_app, !app_assoc. reflexivity.
Qed.
Lemma extend_nil n x0 a : extend n x0 a [] = a.
Proof. unfold extend. cbn. rewrite !app_nil_r. destruct a; reflexivity. Qed.

Lemma row_step_spec n ty (m : R) x0 j v b w a : role_type ty (type_of b) -> ty <> IObjective ->
  row_step n ty m j (v - srow_dot j x0) b w a = Val (extend n x0 a [(m, {| r_jac := j; r_val := v; r_bnd := b; r_w := w |})]).
Proof.
  intros H N. unfold row_step.
  assert (K : type_ok ty (type_of b) = true /\ exists ss, slack_signs (T := R) (type_of b) = Some ss).
  { destruct ty; cbn in H; [congruence| | |]; repeat destruct H as [H|H]; rewrite ?H; cbn; eauto. }
  destruct K as [K [ss Ks]]. rewrite K, Ks. unfold extend, slack_costs, rconst, signs. cbn [placed flat_map map snd fst r_jac r_bnd r_val r_w]. rewrite !app_nil_r. unfold signs. cbn [snd r_bnd r_jac]. rewrite Ks. reflexivity.
Qed.
Lemma rows_loop_spec n ty m x0 js vs bs ws a : length vs = length js -> length bs = length js -> length ws = length js ->
  Forall (fun b => role_type ty (type_of b)) bs -> ty <> IObjective ->
  rows_loop n ty m js (vzip nsub vs (jac_mul js x0)) bs ws a = Val (extend n x0 a (map (pair m) (rows_of js vs bs ws))).
Proof.
  intros Lv Lb Lw F N. revert vs bs ws Lv Lb Lw F a. induction js as [|j js IH]; intros [|v vs] [|b bs] [|w ws] Lv Lb Lw F a; try discriminate.
  - cbn. rewrite extend_nil. reflexivity.
  - cbn [jac_mul map vzip combine rows_loop fst snd]. inversion F as [|b' bs' Fb Fbs]; subst. change (nsub v (srow_dot j x0)) with (v - srow_dot j x0). rewrite row_step_spec by assumption. cbn [rbind].
    change (map (fun p : R * R => nsub (fst p) (snd p)) (combine vs (map (fun r => srow_dot r x0) js))) with (vzip nsub vs (jac_mul js x0)).
    rewrite IH by (cbn in *; congruence). rewrite extend_app. reflexivity.
Qed.

(** rows of the penalties, and of the constraints with the coefficients they get *)
Definition one_rows (x : list R) (ts : list (term R)) : list (R * crow) := flat_map (fun t => map (pair 1) (term_rows x t)) ts.
Fixpoint merit_rows (x : list R) (ms : list R) (k : nat) (ts : list (term R)) : list (R * crow) :=
  match ts with
  | [] => []
  | t :: ts => map (pair (nth k ms 0)) (term_rows x t) ++ merit_rows x ms (if nonempty x t then S k else k) ts
  end.
Lemma rows_of_length js vs bs ws : length vs = length js -> length bs = length js -> length ws = length js -> length (rows_of js vs bs ws) = length js.
Proof. revert vs bs ws. induction js; intros [|] [|] [|]; cbn; intros; try discriminate; auto. Qed.
Lemma term_rows_length x t : comp_ok (tm_at t x) -> length (term_rows x t) = cm_rows (tm_at t x).
Proof. intros (A & B & C & D). unfold term_rows, comp_rows. rewrite rows_of_length; congruence. Qed.
Lemma set_step_empty n size x ms (t : term R) ty k a : cm_rows (tm_at t x) = 0%nat -> set_step n size x ms (t, info_of ty (tm_at t x)) (k, a) = Val (k, a).
Proof. intros E. unfold set_step. cbn [snd info_of in_rows]. rewrite E. reflexivity. Qed.
Lemma term_rows_empty x t : comp_ok (tm_at t x) -> cm_rows (tm_at t x) = 0%nat -> term_rows x t = [].
Proof. intros C E. apply term_rows_length in C. rewrite E in C. destruct (term_rows x t); [reflexivity|discriminate]. Qed.
Lemma nil_rows_dec x t : {cm_rows (tm_at t x) = 0%nat} + {nonempty x t = true}.
Proof. unfold nonempty. destruct (cm_rows (tm_at (T := R) t x)); [left; reflexivity|right; reflexivity]. Qed.

Lemma set_step_spec n size x ms t ty k a : usable ty n x t -> ty <> IObjective -> cm_rows (tm_at t x) <> 0%nat ->
  (length (a_const a) + cm_rows (tm_at t x) <= size)%nat -> (ty = IMerit -> (k < length ms)%nat) ->
  set_step n size x ms (t, info_of ty (tm_at t x)) (k, a) =
  Val (match ty with IMerit => S k | _ => k end, extend n x a (map (pair match ty with IMerit => nth k ms 0 | _ => 1 end) (term_rows x t))).
Proof.
  intros (C & _ & B) N E S M. unfold set_step. cbn [snd fst info_of in_rows in_type in_bounds in_coeffs]. rewrite (proj2 (Nat.eqb_neq _ _) E).
  pose proof C as (A1 & A2 & A3 & A4). rewrite A1, A3, !Nat.eqb_refl, (proj2 (Nat.leb_le _ _) S). cbn [andb].
  assert (F : Forall (fun b => role_type ty (type_of b)) (cm_bounds (tm_at t x))) by (eapply Forall_impl; [|exact B]; cbn; tauto).
  destruct ty; [congruence| | |].
  - change none_ with 1. rewrite rows_loop_spec by (auto; congruence). reflexivity.
  - change none_ with 1. rewrite rows_loop_spec by (auto; congruence). reflexivity.
  - destruct (nth_error ms k) as [m|] eqn:Em; [|apply nth_error_None in Em; specialize (M eq_refl); lia].
    rewrite rows_loop_spec by (auto; congruence). cbn [rbind]. rewrite (nth_error_nth _ _ 0 Em). reflexivity.
Qed.
Lemma sets_loop_app n size x ms a b ka : sets_loop (T := R) n size x ms (a ++ b) ka = rbind (sets_loop n size x ms a ka) (sets_loop n size x ms b).
Proof. revert ka. induction a as [|t a IH]; intros ka; [reflexivity|]. cbn [app sets_loop]. destruct (set_step n size x ms t ka); cbn [rbind]; auto. Qed.

Lemma sets_loop_pen n size x ms ts ty k a : ty = IHinge \/ ty = IAbsolute -> Forall (usable ty n x) ts -> (length (a_const a) + rows_at x ts <= size)%nat ->
  sets_loop n size x ms (combine ts (infos ty x ts)) (k, a) = Val (k, extend n x a (one_rows x ts)).
Proof.
  intros Ty F. revert a. induction F as [|t ts U F IH]; intros a Sz; [cbn; now rewrite extend_nil|].
  rewrite rows_at_cons in Sz. cbn [infos map combine sets_loop one_rows flat_map]. fold (infos ty x ts) (one_rows x ts).
  destruct (Nat.eq_dec (cm_rows (tm_at t x)) 0) as [Z|Z].
  - rewrite set_step_empty, term_rows_empty by (auto; apply U). cbn [rbind map app]. apply IH. lia.
  - rewrite set_step_spec by (destruct Ty; subst ty; auto; try discriminate; lia). cbn [rbind].
    replace (match ty with IMerit => S k | _ => k end) with k by (destruct Ty; subst ty; reflexivity).
    replace (match ty with IMerit => nth k ms 0 | _ => 1 end) with 1 by (destruct Ty; subst ty; reflexivity).
    rewrite IH, extend_app; [reflexivity|]. cbn [extend a_const]. rewrite app_length, !map_length, term_rows_length by apply U. lia.
Qed.
Lemma sets_loop_merit n size x ms ts k a : Forall (usable IMerit n x) ts -> (length (a_const a) + rows_at x ts <= size)%nat -> (k + length ts <= length ms)%nat ->
  exists k', sets_loop n size x ms (combine ts (infos IMerit x ts)) (k, a) = Val (k', extend n x a (merit_rows x ms k ts)).
Proof.
  intros F. revert k a. induction F as [|t ts U F IH]; intros k a Sz L; [cbn; rewrite extend_nil; eauto|].
  rewrite rows_at_cons in Sz. cbn [length] in L. cbn [infos map combine sets_loop merit_rows]. fold (infos IMerit x ts).
  destruct (Nat.eq_dec (cm_rows (tm_at t x)) 0) as [Z|Z].
  - rewrite set_step_empty, term_rows_empty by (auto; apply U). cbn [rbind map app]. unfold nonempty. rewrite Z. cbn [Nat.eqb negb]. apply IH; lia.
  - rewrite set_step_spec by (auto; try discriminate; lia). cbn [rbind]. unfold nonempty. rewrite (proj2 (Nat.eqb_neq _ _) Z). cbn [negb].
    destruct (IH (Datatypes.S k) (extend n x a (map (pair (nth k ms 0)) (term_rows x t)))) as [k' E]; [| lia|].
    + cbn [extend a_const]. rewrite app_length, !map_length, term_rows_length by apply U. lia.
    + exists k'. rewrite E, extend_app. reflexivity.
Qed.

(** ** The loop over the squared costs *)
Definition row_target (r : crow) : R := lo_or (r_bnd r) 0.
(** Gauss-Newton model of one squared row around [x0] *)
Definition gn (x0 y : list R) (r : crow) : R := r_w r * (r_val r + (srow_dot (r_jac r) y - srow_dot (r_jac r) x0) - row_target r) ^ 2.

Definition qsized (m n : nat) (q : quads R) : Prop :=
  length (qe_const q) = m /\ length (qe_lin q) = m /\ length (qe_quad q) = m /\ length (qe_obj_lin q) = n /\
  length (qe_obj_quad q) = n /\ Forall (fun r => length r = n) (qe_obj_quad q).
Definition qapp (q e : quads R) : quads R :=
  {| qe_const := qe_const q ++ qe_const e; qe_lin := qe_lin q ++ qe_lin e; qe_quad := qe_quad q ++ qe_quad e;
     qe_obj_lin := vzip nadd (qe_obj_lin q) (qe_obj_lin e); qe_obj_quad := mzip (qe_obj_quad q) (qe_obj_quad e) |}.
Definition means (n : nat) (q : quads R) (y vs : list R) : Prop :=
  qe_values q y = Val vs /\ rsum (fun v => v) (qe_const q) + vdot (qe_obj_lin q) y + qform n (qe_obj_quad q) y = rsum (fun v => v) vs.

Lemma combine_app2 {A B} (a a' : list A) (b b' : list B) : length a = length b -> combine (a ++ a') (b ++ b') = combine a b ++ combine a' b'.
Proof. apply combine_app. Qed.
Lemma vzip_app f (a a' b b' : list R) : length a = length b -> vzip f (a ++ a') (b ++ b') = vzip f a b ++ vzip f a' b'.
Proof. intros L. unfold vzip. rewrite combine_app by exact L. apply map_app. Qed.
Lemma qapp_sized m m' n q e : qsized m n q -> qsized m' n e -> qsized (m + m') n (qapp q e).
Proof.
  intros (A1 & A2 & A3 & A4 & A5 & A6) (B1 & B2 & B3 & B4 & B5 & B6). unfold qsized, qapp. cbn [qe_const qe_lin qe_quad qe_obj_lin qe_obj_quad].
  rewrite !app_length. repeat (split; [try (unfold mzip; vl); lia|]).
  unfold mzip. apply Forall_forall. intros r Hr. apply in_map_iff in Hr. destruct Hr as ((a, b) & <- & Hr).
  cbn [fst snd]. pose proof (in_combine_l _ _ _ _ Hr). pose proof (in_combine_r _ _ _ _ Hr). rewrite Forall_forall in A6, B6.
  rewrite vzip_length; [auto|]. rewrite A6, B6 by assumption. reflexivity.
Qed.
Lemma qe_values_sized m n q y : qsized m n q ->
  qe_values q y = Val (map (fun p => fst p + quad_value (snd p) y) (combine (vzip nadd (qe_const q) (jac_mul (qe_lin q) y)) (qe_quad q))).
Proof.
  intros (A1 & A2 & A3 & _). unfold qe_values. rewrite A1, A2, Nat.eqb_refl.
  assert (L : length (vzip nadd (qe_const q) (jac_mul (qe_lin q) y)) = m) by (rewrite vzip_length; rewrite ?jac_mul_length; lia).
  rewrite L, A3, Nat.eqb_refl. destruct (qe_quad q) eqn:E; [|reflexivity]. cbn in A3. destruct (vzip _ _ _); [reflexivity|cbn in L; lia].
Qed.
Lemma vdot_vzip (a b y : list R) : length a = length y -> length b = length y -> vdot (vzip nadd a b) y = vdot a y + vdot b y.
Proof.
  intros La Lb. rewrite !(vdot_bigsum (length y)) by (rewrite ?vzip_length; congruence). rewrite <- bigsum_plus. apply bigsum_ext. intros i Hi.
  rewrite vzip_nth by lia. rnum. ring.
Qed.
Lemma qform_mzip n (a b : list (list R)) y : length a = n -> length b = n -> Forall (fun r => length r = n) a -> Forall (fun r => length r = n) b ->
  qform n (mzip a b) y = qform n a y + qform n b y.
Proof.
  intros La Lb Fa Fb. unfold qform. rewrite <- bigsum_plus. apply bigsum_ext. intros i Hi. rewrite <- bigsum_plus. apply bigsum_ext. intros k Hk.
  unfold mzip. rewrite (map_combine_nth (fun p => vzip nadd (fst p) (snd p)) a b i [] [] []) by lia. cbn [fst snd].
  assert (Ra : length (nth i a []) = n) by (apply (proj1 (Forall_forall _ _) Fa), nth_In; lia).
  assert (Rb : length (nth i b []) = n) by (apply (proj1 (Forall_forall _ _) Fb), nth_In; lia).
  rewrite vzip_nth by lia. rnum. ring.
Qed.
Lemma qapp_means m m' n q e y vs vs' : qsized m n q -> qsized m' n e -> length y = n -> means n q y vs -> means n e y vs' -> means n (qapp q e) y (vs ++ vs').
Proof.
  intros Sq Se Ly [Vq Oq] [Ve Oe]. pose proof (qapp_sized _ _ _ _ _ Sq Se) as Sa. split.
  - rewrite (qe_values_sized _ _ _ _ Sa). rewrite (qe_values_sized _ _ _ _ Sq) in Vq. rewrite (qe_values_sized _ _ _ _ Se) in Ve.
    injection Vq as <-. injection Ve as <-. f_equal. cbn [qapp qe_const qe_lin qe_quad]. unfold jac_mul. rewrite map_app.
    destruct Sq as (A1 & A2 & A3 & _). rewrite vzip_app by (rewrite map_length; lia). rewrite combine_app by vl. apply map_app.
  - cbn [qapp qe_const qe_obj_lin qe_obj_quad]. destruct Sq as (_ & _ & _ & A4 & A5 & A6). destruct Se as (_ & _ & _ & B4 & B5 & B6).
    rewrite !rsum_app, vdot_vzip, qform_mzip by (auto; congruence). rewrite <- Oq, <- Oe. ring.
Qed.

Lemma lowers_spec (bs : list (bnd R)) : Forall (fun b => type_of b = Equality) bs -> lowers bs = Val (map (fun b => lo_or b 0) bs).
Proof.
  induction 1 as [|b bs Hb _ IH]; [reflexivity|]. cbn [lowers map]. unfold lo_or at 1. unfold type_of in Hb.
  destruct (b_lo b) as [l|]; [|destruct (b_hi b); discriminate]. rewrite IH. reflexivity.
Qed.
Lemma put_spec {A} (l : list A) row v : (row + length v <= length l)%nat -> put l row v = Val (firstn row l ++ v ++ skipn (row + length v) l).
Proof. intros H. unfold put. rewrite (proj2 (Nat.leb_le _ _) H). reflexivity. Qed.
Lemma put_length {A} (l : list A) row v : (row + length v <= length l)%nat -> length (firstn row l ++ v ++ skipn (row + length v) l) = length l.
Proof. intros H. rewrite !app_length, firstn_length, skipn_length. lia. Qed.
Lemma put_segment {A} (l : list A) row v : (row + length v <= length l)%nat ->
  firstn (length v) (skipn row (firstn row l ++ v ++ skipn (row + length v) l)) = v.
Proof.
  intros H. rewrite skipn_app, firstn_length, skipn_all2 by (rewrite firstn_length; lia). replace (row - Nat.min row (length l))%nat with 0%nat by lia.
  cbn [app skipn]. rewrite firstn_app, Nat.sub_diag, firstn_all, firstn_O, app_nil_r. reflexivity.
Qed.

Lemma rows_of_nth js vs bs ws i : length vs = length js -> length bs = length js -> length ws = length js -> (i < length js)%nat ->
  nth i (rows_of js vs bs ws) {| r_jac := []; r_val := 0; r_bnd := {| b_lo := None; b_hi := None |}; r_w := 0 |} =
  {| r_jac := nth i js []; r_val := nth i vs 0; r_bnd := nth i bs {| b_lo := None; b_hi := None |}; r_w := nth i ws 0 |}.
Proof.
  revert vs bs ws i. induction js as [|j js IH]; intros [|v vs] [|b bs] [|w ws] i; cbn [length]; intros; try discriminate; try lia.
  destruct i; [reflexivity|]. cbn [rows_of nth]. apply IH; lia.
Qed.
Lemma neg_rows_dot (r : srow R) y : srow_dot (map (fun cv => (fst cv, nmul (snd cv) (nopp none_))) r) y = - srow_dot r y.
Proof. rewrite !srow_dot_R, rsum_map. rewrite <- (Rmult_1_l (rsum (fun p => snd p * nth (fst p) y 0) r)), Ropp_mult_distr_l, <- rsum_scal. apply rsum_ext. intros p _. cbn [fst snd]. rnum. ring. Qed.

Lemma obj_step_spec n x t row target q : usable IObjective n x t -> (row + cm_rows (tm_at t x) <= length target)%nat ->
  exists target' e, obj_step sqrt n x (t, info_of IObjective (tm_at t x)) (row, target, q) = Val ((row + cm_rows (tm_at t x))%nat, target', qapp q e) /\
    length target' = length target /\ qsized (cm_rows (tm_at t x)) n e /\
    (Forall (fun w => 0 <= w) (cm_coeffs (tm_at t x)) -> forall y, length y = n -> means n e y (map (gn x y) (term_rows x t))).
Proof.
  intros (C & J & B) H. set (c := tm_at t x) in *. pose proof C as (A1 & A2 & A3 & A4). unfold obj_step. cbn [fst snd info_of in_bounds]. fold c.
  assert (Eq : Forall (fun b => type_of b = Equality) (cm_bounds c)) by (eapply Forall_impl; [|exact B]; cbn; tauto).
  rewrite lowers_spec by exact Eq. cbn [rbind]. set (ls := map (fun b => lo_or b 0) (cm_bounds c)).
  assert (Ll : length ls = cm_rows c) by (unfold ls; rewrite map_length; exact A4).
  rewrite put_spec by lia. cbn [rbind]. unfold ae_create. rewrite A3, A1, Nat.eqb_refl. cbn [rbind ae_const ae_lin].
  rewrite put_length by lia. rewrite (proj2 (Nat.leb_le _ _) H), vzip_length by (rewrite jac_mul_length; lia). rewrite A1, Nat.eqb_refl. cbn [andb].
  replace (firstn (cm_rows c) (skipn row (firstn row target ++ ls ++ skipn (row + length ls) target))) with ls by (rewrite <- Ll, put_segment by lia; reflexivity).
  set (a' := {| ae_const := _; ae_lin := _ |}).
  assert (La : length (ae_const a') = cm_rows c) by (unfold a'; cbn [ae_const]; rewrite vzip_length; rewrite ?vzip_length; rewrite ?jac_mul_length; lia).
  assert (Lb : length (ae_lin a') = cm_rows c) by (unfold a'; cbn [ae_lin]; rewrite map_length; lia).
  assert (Ja : Forall (Forall (fun p => (fst p < n)%nat)) (ae_lin a')).
  { unfold a'. cbn [ae_lin]. apply Forall_map. eapply Forall_impl; [|exact J]. intros r Hr. apply Forall_map. exact Hr. }
  assert (S : exists e, ae_square sqrt n a' (cm_coeffs c) = Val e /\ qsized (cm_rows c) n e).
  { unfold ae_square. rewrite La, Lb, A2, Nat.eqb_refl. cbn [andb]. eexists. split; [reflexivity|]. unfold qsized. cbn [qe_const qe_lin qe_quad qe_obj_lin qe_obj_quad].
    unfold col_sums. repeat split; try (rewrite ?map_length, ?seq_length; reflexivity); try vl.
    apply Forall_map, Forall_forall. intros i _. rewrite map_length, seq_length. reflexivity. }
  destruct S as (e & Ee & Se). rewrite Ee. cbn [rbind]. eexists. exists e. split; [reflexivity|]. split; [apply put_length; lia|]. split; [exact Se|].
  intros W y Ly. destruct (C17_square n a' (cm_coeffs c)) as (e' & Ee' & V); try assumption; try congruence. rewrite Ee in Ee'. injection Ee' as <-.
  destruct (V y Ly) as (vs & Hv & Lv & Nv & Sv). assert (Ev : map (gn x y) (term_rows x t) = vs).
  { apply nth_ext with 0 0.
    - rewrite map_length, term_rows_length by exact C. fold c. lia.
    - intros i Hi. rewrite map_length, term_rows_length in Hi by exact C. fold c in Hi.
      rewrite (nth_map_d (gn x y) _ i 0 {| r_jac := []; r_val := 0; r_bnd := {| b_lo := None; b_hi := None |}; r_w := 0 |}) by (rewrite term_rows_length; auto).
      unfold term_rows, comp_rows. fold c. rewrite rows_of_nth by lia. rewrite Nv by lia. unfold gn, a', row_target. cbn [r_jac r_val r_bnd r_w ae_lin ae_const].
      rewrite (nth_map_d _ _ i [] []) by lia. rewrite neg_rows_dot.
      assert (Lz : length (vzip nsub (cm_vals c) (jac_mul (cm_jac c) x)) = cm_rows c) by (rewrite vzip_length; rewrite ?jac_mul_length; lia).
      rewrite vzip_nth by lia. rewrite vzip_nth by (rewrite ?jac_mul_length; lia). rewrite jac_mul_nth by lia.
      unfold ls. rewrite (nth_map_d (fun b => lo_or b 0) _ i 0 {| b_lo := None; b_hi := None |}) by lia. rnum. ring. }
  rewrite Ev. split; [exact Hv|exact Sv].
Qed.
Lemma means_zero n y : length y = n -> means n (quads_zero n) y [].
Proof.
  intros L. split; [reflexivity|]. cbn [quads_zero qe_const qe_obj_lin qe_obj_quad]. rewrite !rsum_nil.
  rewrite (vdot_bigsum n) by (rewrite ?repeat_length; auto).
  rewrite (bigsum_ext n _ (fun _ => 0)) by (intros; change nzero with 0; rewrite repeat_nth0; ring). rewrite bigsum_zero.
  unfold qform. rewrite (bigsum_ext n _ (fun _ => 0)); [rewrite bigsum_zero; ring|]. intros i Hi. rewrite (bigsum_ext n _ (fun _ => 0)); [apply bigsum_zero|].
  intros k Hk. rewrite (nth_indep _ [] (repeat nzero n)) by (rewrite repeat_length; lia). rewrite nth_repeat. change nzero with 0. rewrite repeat_nth0. ring.
Qed.
Lemma quads_zero_sized n : qsized 0 n (quads_zero n).
Proof. unfold qsized, quads_zero. cbn. rewrite !repeat_length. repeat split; auto. apply Forall_forall. intros r Hr. apply repeat_spec in Hr. subst. apply repeat_length. Qed.
Lemma obj_loop_spec n x ts : Forall (usable IObjective n x) ts -> forall row target q m, qsized m n q -> (row + rows_at x ts <= length target)%nat ->
  exists target' q', obj_loop sqrt n x (combine ts (infos IObjective x ts)) (row, target, q) = Val ((row + rows_at x ts)%nat, target', q') /\
    length target' = length target /\ qsized (m + rows_at x ts) n q' /\
    (Forall (fun t => Forall (fun w => 0 <= w) (cm_coeffs (tm_at t x))) ts -> forall y vs, length y = n -> means n q y vs ->
       means n q' y (vs ++ flat_map (fun t => map (gn x y) (term_rows x t)) ts)).
Proof.
  induction 1 as [|t ts U F IH]; intros row tg q m Sq H.
  - exists tg, q. unfold rows_at. cbn. rewrite !Nat.add_0_r. split; [reflexivity|]. split; [reflexivity|]. split; [exact Sq|]. intros _ y vs _ M. rewrite app_nil_r. exact M.
  - rewrite rows_at_cons in *. cbn [infos map combine obj_loop]. fold (infos IObjective x ts).
    destruct (obj_step_spec n x t row tg q U) as (tg1 & e & E & L1 & Se & Me); [lia|]. rewrite E. cbn [rbind].
    destruct (IH (row + cm_rows (tm_at t x))%nat tg1 (qapp q e) (m + cm_rows (tm_at t x))%nat) as (tg2 & q2 & E2 & L2 & S2 & M2); [apply qapp_sized; assumption|lia|].
    exists tg2, q2. rewrite E2, Nat.add_assoc. split; [reflexivity|]. split; [lia|]. split; [rewrite Nat.add_assoc; exact S2|].
    intros W y vs Ly M. inversion W; subst. cbn [flat_map]. rewrite app_assoc. apply M2; auto. eapply qapp_means; eauto.
Qed.

(** ** Reachable states satisfy the invariant *)
Lemma put_inv {A} (l : list A) row v l' : put l row v = Val l' -> length l' = length l.
Proof. unfold put. destruct (Nat.leb_spec (row + length v) (length l)); [|discriminate]. intros [= <-]. apply put_length. assumption. Qed.
Lemma rbind_val {A B} (r : res A) (f : A -> res B) b : rbind r f = Val b -> exists a, r = Val a /\ f a = Val b.
Proof. destruct r; try discriminate. eauto. Qed.
Lemma obj_loop_target n x tis st st' : obj_loop sqrt n x tis st = Val st' -> length (snd (fst st')) = length (snd (fst st)).
Proof.
  revert st. induction tis as [|ti tis IH]; intros st E; cbn [obj_loop] in E; [injection E as <-; reflexivity|].
  apply rbind_val in E. destruct E as (st1 & E1 & E). rewrite (IH _ E). clear IH E.
  unfold obj_step in E1. destruct st as ((row, tg), q). apply rbind_val in E1. destruct E1 as (ls & _ & E1). apply rbind_val in E1. destruct E1 as (tg1 & Et & E1).
  apply rbind_val in E1. destruct E1 as (a & _ & E1). destruct (_ && _)%bool; [|discriminate]. apply rbind_val in E1. destruct E1 as (e & _ & E1). injection E1 as <-.
  cbn [fst snd]. apply put_inv in Et. exact Et.
Qed.
Lemma update_box_inv (p p' : qp R) box : update_box p box = Val p' ->
  q_x p' = q_x p /\ q_bnds p' = q_bnds p /\ q_src p' = q_src p /\ q_init p' = q_init p /\ q_ndyn p' = q_ndyn p /\ q_prev p' = q_prev p /\ q_lay p' = q_lay p /\
  q_box p' = box /\ length box = l_n (q_lay p) /\ q_merit p' = q_merit p /\ q_tab p' = q_tab p /\
  c_const (q_cvx p') = c_const (q_cvx p) /\ c_rowb (q_cvx p') = c_rowb (q_cvx p) /\ c_target (q_cvx p') = c_target (q_cvx p) /\ length (c_varb (q_cvx p')) = l_n (q_lay p).
Proof.
  unfold update_box. destruct (Nat.eqb_spec (length (c_varb (q_cvx p))) (l_n (q_lay p))) as [A|]; [|discriminate].
  destruct (Nat.eqb_spec (length box) (l_n (q_lay p))) as [B|]; [|discriminate]. destruct (Nat.eqb_spec (length (q_x p)) (l_n (q_lay p))) as [C|]; [|discriminate].
  destruct (Nat.eqb_spec (length (l_vbnds (q_lay p))) (l_n (q_lay p))) as [D|]; [|discriminate]. cbn [andb]. intros [= <-].
  cbn [q_x q_bnds q_src q_init q_ndyn q_prev q_lay q_box q_merit q_tab q_cvx c_const c_rowb c_target c_varb]. repeat (split; [first [reflexivity|assumption]|]).
  unfold box_rows. rewrite !map_length, !combine_length. lia.
Qed.
Lemma box_inv (p p' : qp R) box : inv p -> update_box p box = Val p' -> inv p'.
Proof.
  intros I E. apply update_box_inv in E. destruct E as (E1 & E2 & E3 & E4 & E5 & E6 & E7 & E8 & E8' & E9 & E10 & E11 & E12 & E13 & E14).
  constructor; rewrite ?E1, ?E2, ?E3, ?E4, ?E5, ?E6, ?E7, ?E8, ?E9, ?E10; try apply I.
  - intros H. rewrite (iv_lay p I H) in E8'. exact E8'.
  - intros H. destruct (iv_tab p I H) as (y & A & B & C1 & C2 & C3 & C4). exists y. split; [exact A|]. split; [exact B|].
    unfold sized_for. rewrite E11, E12, E13, E14. rewrite (iv_lay p I H). auto.
Qed.
Lemma convexify_inv (p p' : qp R) : inv p -> convexify sqrt p = Val p' -> inv p'.
Proof.
  intros I E. unfold convexify in E. destruct (q_init p) eqn:H; [|discriminate].
  destruct (update_tab p I H) as (T1 & (S1 & S2 & S3 & S4) & U1 & U2 & U3 & U4 & U5 & U6 & U7 & y & V1 & V2). pose proof (update_init p) as U0. set (u := update p) in *. cbv zeta in E.
  apply rbind_val in E. destruct E as (ka & _ & E). apply rbind_val in E. destruct E as (cs & Ec & E). apply rbind_val in E. destruct E as (rb & Er & E).
  apply rbind_val in E. destruct E as (o & Eo & E). destruct o as (((tg, nlp), lin), hess).
  assert (Lt : length tg = length (c_target (q_cvx u))).
  { destruct (0 <? n_obj (q_tab u))%nat; [|now injection Eo as <- _ _ _]. apply rbind_val in Eo. destruct Eo as (st & Eo & Eq).
    apply obj_loop_target in Eo. injection Eq as <- _ _ _. exact Eo. }
  apply put_inv in Ec, Er. eapply box_inv; [|exact E].
  constructor; cbn [with_cvx q_x q_bnds q_src q_init q_lay q_box q_merit q_ndyn q_prev q_tab q_cvx]; rewrite ?U1, ?U2, ?U3, ?U4, ?U5, ?U6, ?U7; try apply I.
  - rewrite U0. apply I.
  - rewrite U0. apply I.
  - rewrite U0. apply I.
  - rewrite U0. apply I.
  - intros _. exists y. split; [exact V1|]. split; [exact V2|]. unfold sized_for. cbn [c_const c_rowb c_target c_varb]. rewrite Ec, Er, Lt. auto.
Qed.
Lemma reach_inv p : reach p -> inv p.
Proof.
  induction 1 as [x bs L|p t _ I W|p t k p' _ I W E|p _ I H|p x _ I L|p b p' _ I E|p k p' _ I E|p m p' _ I E|p p' _ I E].
  - constructor; cbn; try discriminate; auto. repeat split; constructor.
  - destruct (iv_src p I) as (S1 & S2 & S3 & S4 & S5 & S6 & S7 & S8).
    constructor; cbn [add_constraint with_src q_init]; try discriminate; [apply (iv_bnds p I)|]. unfold add_constraint. cbn [with_src q_src].
    unfold wf_sources. cbn [s_sq s_dsq s_hinge s_dhinge s_abs s_dabs s_cnt s_dcnt]. destruct (tm_dyn t); rewrite ?Forall_app; intuition (auto using Forall_cons, Forall_nil).
  - destruct (iv_src p I) as (S1 & S2 & S3 & S4 & S5 & S6 & S7 & S8). unfold add_cost in E.
    destruct k; destruct (forallb _ _); try discriminate; injection E as <-; (constructor; cbn [with_src q_init]; try discriminate; [apply (iv_bnds p I)|]); cbn [with_src q_src];
    unfold wf_sources; cbn [s_sq s_dsq s_hinge s_dhinge s_abs s_dabs s_cnt s_dcnt]; destruct (tm_dyn t); rewrite ?Forall_app; intuition (auto using Forall_cons, Forall_nil).
  - apply setup_inv; assumption.
  - constructor; cbn [set_variables q_x q_bnds q_src q_init q_lay q_box q_merit q_ndyn q_prev q_tab q_cvx]; rewrite ?L; try apply I.
    intros H. rewrite (iv_lay p I H). reflexivity.
  - unfold set_box in E. destruct (_ =? _)%nat; [|discriminate]. eapply box_inv; eauto.
  - eapply box_inv; eauto.
  - unfold set_merit in E. destruct (Nat.eqb_spec (length m) (length (s_cnt (q_src p)) + length (s_dcnt (q_src p)))) as [L|]; [|discriminate]. injection E as <-.
    constructor; cbn; try apply I. intros _. unfold merits. rewrite app_length. exact L.
  - eapply convexify_inv; eauto.
Qed.

(** ** What convexify() produces *)
Definition qp_rows (p : qp R) : list (R * crow) :=
  one_rows (q_x p) (hinges (q_src p)) ++ one_rows (q_x p) (absolutes (q_src p)) ++ merit_rows (q_x p) (q_merit p) 0 (merits (q_src p)).
Lemma one_rows_length n ty x ts : Forall (usable ty n x) ts -> length (one_rows x ts) = rows_at x ts.
Proof. induction 1 as [|t ts U _ IH]; [reflexivity|]. rewrite rows_at_cons. unfold one_rows in *. cbn [flat_map]. rewrite app_length, map_length, term_rows_length, IH by apply U. reflexivity. Qed.
Lemma merit_rows_length n x ms ts : Forall (usable IMerit n x) ts -> forall k, length (merit_rows x ms k ts) = rows_at x ts.
Proof. induction 1 as [|t ts U _ IH]; intros k; [reflexivity|]. rewrite rows_at_cons. cbn [merit_rows]. rewrite app_length, map_length, term_rows_length, IH by apply U. reflexivity. Qed.

Record convexified (p p' : qp R) : Prop := {
  cv_keep : q_x p' = q_x p /\ q_bnds p' = q_bnds p /\ q_src p' = q_src p /\ q_init p' = true /\ q_lay p' = q_lay p /\ q_box p' = q_box p /\ q_merit p' = q_merit p;
  cv_tab : q_tab p' = tables_at (q_src p) (q_x p);
  cv_const : c_const (q_cvx p') = map (fun mr => rconst (q_x p) (snd mr)) (qp_rows p);
  cv_rowb : c_rowb (q_cvx p') = map (fun mr => Some (shift (r_bnd (snd mr)) (rconst (q_x p) (snd mr)))) (qp_rows p);
  cv_varb : c_varb (q_cvx p') = map Some (box_rows (q_bnds p) (q_x p) (q_box p));
  cv_slackb : c_slackb (q_cvx p') = repeat {| b_lo := Some 0; b_hi := None |} (length (slack_costs (qp_rows p)));
  cv_mat : c_mat (q_cvx p') = placed (length (q_x p)) 0 (qp_rows p) ++
             map (fun i => [(i, 1)]) (seq 0 (length (q_x p) + length (slack_costs (qp_rows p))));
  cv_obj : exists q, qsized (rows_at (q_x p) (objectives (q_src p))) (length (q_x p)) q /\
    ((0 < rows_at (q_x p) (objectives (q_src p)))%nat -> c_nlp (q_cvx p') = Some q) /\
    c_grad (q_cvx p') = qe_obj_lin q ++ slack_costs (qp_rows p) /\ c_hess (q_cvx p') = map (map thr) (qe_obj_quad q) /\
    (Forall (fun t => Forall (fun w => 0 <= w) (cm_coeffs (tm_at t (q_x p)))) (objectives (q_src p)) -> forall y, length y = length (q_x p) ->
       means (length (q_x p)) q y (flat_map (fun t => map (gn (q_x p) y) (term_rows (q_x p) t)) (objectives (q_src p))))
}.
Lemma thr0 : thr 0 = 0.
Proof. unfold thr. destruct (_ <? _)%num; reflexivity. Qed.
Lemma convexify_spec (p : qp R) : inv p -> q_init p = true -> all_usable p -> exists p', convexify sqrt p = Val p' /\ convexified p p'.
Proof.
  intros I H (A1 & A2 & A3 & A4). unfold convexify. rewrite H.
  destruct (update_tab p I H) as (T1 & (S1 & S2 & S3 & S4) & U1 & U2 & U3 & U4 & U5 & U6 & U7 & _). pose proof (update_init p) as U0. set (u := update p) in *.
  pose proof (iv_lay p I H) as Hl. pose proof (iv_merit p I H) as Hm. pose proof (iv_box p I H) as Hb. pose proof (iv_bnds p I) as Hv.
  cbv zeta. rewrite U1, U4, U6, Hl, T1. cbn [l_n l_pen l_mer l_obj layout_of tables_at i_pen i_mer i_obj n_obj n_pen n_mer].
  set (s := q_src p) in *. set (x := q_x p) in *. set (n := length x) in *.
  assert (P : pens s = hinges s ++ absolutes s) by (unfold pens, hinges, absolutes; now rewrite app_assoc).
  rewrite T1 in S1, S2, S3. cbn [n_pen n_mer n_obj tables_at] in S1, S2, S3. rewrite S1, P.
  rewrite P in S1, S2. rewrite rows_at_app in S1, S2.
  assert (Li : forall ty ts, length ts = length (infos ty x ts)) by (intros; unfold infos; now rewrite map_length).
  rewrite !combine_app by (rewrite ?app_length, <- ?Li; auto). rewrite !sets_loop_app.
  rewrite sets_loop_pen by (auto; rewrite ?rows_at_app; cbn; lia). cbn [rbind].
  rewrite sets_loop_pen; [|auto|exact A3|cbn [extend a_const app]; rewrite map_length, (one_rows_length n IHinge) by exact A2; rewrite rows_at_app; lia]. cbn [rbind]. rewrite extend_app.
  destruct (sets_loop_merit n (rows_at x (hinges s ++ absolutes s) + rows_at x (merits s)) x (q_merit p) (merits s) 0
    (extend n x {| a_rows := []; a_const := []; a_bnds := []; a_slack := [] |} (one_rows x (hinges s) ++ one_rows x (absolutes s))) A4) as [k' Ek].
  { cbn [extend a_const app]. rewrite map_length, app_length, (one_rows_length n IHinge), (one_rows_length n IAbsolute), rows_at_app by assumption. lia. }
  { lia. }
  rewrite Ek. cbn [rbind snd]. rewrite extend_app, <- app_assoc. clear Ek.
  change (one_rows x (hinges s) ++ one_rows x (absolutes s) ++ merit_rows x (q_merit p) 0 (merits s)) with (qp_rows p).
  assert (Lr : length (qp_rows p) = (rows_at x (hinges s) + rows_at x (absolutes s) + rows_at x (merits s))%nat).
  { unfold qp_rows. rewrite !app_length. fold x s. rewrite (one_rows_length n IHinge), (one_rows_length n IAbsolute), (merit_rows_length n) by assumption. lia. }
  cbn [extend a_const a_bnds a_slack a_rows app length]. set (rs := qp_rows p) in *.
  rewrite put_spec by (rewrite map_length; lia). cbn [rbind firstn app Nat.add]. rewrite (skipn_all2 (c_const _)), app_nil_r by (rewrite map_length; lia).
  rewrite put_spec by (rewrite !map_length; lia). cbn [rbind firstn app Nat.add]. rewrite (skipn_all2 (c_rowb _)), app_nil_r by (rewrite !map_length; lia).
  assert (O : exists tg nlp q, (if (0 <? rows_at x (objectives s))%nat
      then rbind (obj_loop sqrt n x (combine (objectives s) (infos IObjective x (objectives s))) (0%nat, c_target (q_cvx u), quads_zero n)) (fun st =>
             Val (snd (fst st), Some (pad_quads (rows_at x (objectives s)) (snd st)), qe_obj_lin (snd st), map (map thr) (qe_obj_quad (snd st))))
      else Val (c_target (q_cvx u), c_nlp (q_cvx u), repeat nzero n, repeat (repeat nzero n) n)) = Val (tg, nlp, qe_obj_lin q, map (map thr) (qe_obj_quad q)) /\
      length tg = length (c_target (q_cvx u)) /\ qsized (rows_at x (objectives s)) n q /\ ((0 < rows_at x (objectives s))%nat -> nlp = Some q) /\
      (Forall (fun t => Forall (fun w => 0 <= w) (cm_coeffs (tm_at t x))) (objectives s) -> forall y, length y = n ->
       means n q y (flat_map (fun t => map (gn x y) (term_rows x t)) (objectives s)))).
  { destruct (obj_loop_spec n x (objectives s) A1 0%nat (c_target (q_cvx u)) (quads_zero n) 0%nat) as (tg & q & E & L & S & M); [apply quads_zero_sized|lia|].
    destruct (Nat.ltb_spec 0 (rows_at x (objectives s))) as [Z|Z].
    - rewrite E. cbn [rbind fst snd]. exists tg. eexists. exists q. split; [reflexivity|]. split; [exact L|]. cbn [Nat.add] in S. split; [exact S|]. split.
      + intros _. unfold pad_quads. destruct S as (C1 & C2 & C3 & _). rewrite C1, Nat.sub_diag. cbn [repeat]. rewrite !app_nil_r. destruct q; reflexivity.
      + intros W y Ly. apply (M W y [] Ly), means_zero, Ly.
    - assert (Z0 : rows_at x (objectives s) = 0%nat) by lia. exists (c_target (q_cvx u)), (c_nlp (q_cvx u)), (quads_zero n). split.
      + cbn [quads_zero qe_obj_lin qe_obj_quad]. f_equal. f_equal.
        symmetry. rewrite <- (map_id (repeat (repeat nzero n) n)) at 2. apply map_ext_in. intros r Hr. apply repeat_spec in Hr. subst r.
        rewrite <- (map_id (repeat nzero n)) at 2. apply map_ext_in. intros v Hv'. apply repeat_spec in Hv'. subst v. apply thr0.
      + split; [reflexivity|]. rewrite Z0. split; [apply quads_zero_sized|]. split; [lia|]. intros W y Ly.
        assert (N : flat_map (fun t => map (gn x y) (term_rows x t)) (objectives s) = []).
        { clear - A1 Z0. induction A1 as [|t ts U _ IH]; [reflexivity|]. rewrite rows_at_cons in Z0. cbn [flat_map]. rewrite term_rows_empty by (try apply U; lia). apply IH. lia. }
        rewrite N. apply means_zero, Ly. }
  destruct O as (tg & nlp & q & Eo & Lt & Sq & Nq & Mq). rewrite Eo. cbn [rbind]. unfold update_box. cbn [with_cvx q_cvx c_varb q_lay q_x q_box l_n l_vbnds]. rewrite U1, U4, U5, Hl, S4. cbn [l_n l_vbnds layout_of].
  fold x. rewrite Hb, Hv. fold x n. rewrite Nat.eqb_refl. cbn [andb].
  eexists. split; [reflexivity|]. constructor; cbn [with_cvx q_x q_bnds q_src q_init q_lay q_box q_merit q_tab q_cvx c_const c_rowb c_varb c_slackb c_mat c_nlp c_grad c_hess].
  - rewrite ?U1, ?U2, ?U3, ?U0, ?U4, ?U5, ?U6. auto 10.
  - exact T1.
  - reflexivity.
  - rewrite map_map. reflexivity.
  - reflexivity.
  - reflexivity.
  - rewrite placed_length, Lr, rows_at_app, Nat.sub_diag. reflexivity.
  - exists q. auto.
Qed.
