(** Lemmas for C131 and C132. *)
From Coq Require Import List ZArith Bool Arith Lia Reals Lra.
From Verif Require Import Num NumFacts RSums Common ScoExprModel ScoExprProofs ModelingModel ModelingSpec ModelingProofs BackendModel BackendSpec BackendProofs GurobiSpec SolveSpec
  RoundSolveSpec MeritModel MeritSpec.
Import ListNotations.
Local Open Scope R_scope.

Local Notation aux := (Some 0, @None R).

(** ** one objective: what it creates, and the value it cannot fall below *)
Definition spk (n k len v : nat) : Prop := (v < n \/ k <= v < len)%nat.
Definition quad_vars (q : quad R) : list nat := a_vars (q_aff q) ++ q_vars1 q ++ q_vars2 q.
Definition near_cnts (eps : R) (o : cobj R) (pt : list R) : Prop :=
  Forall (fun a => - eps <= aff_value a pt <= eps) (co_eqs o) /\ Forall (fun a => aff_value a pt <= eps) (co_ineqs o).

Section Objective.
  Context (inf eps : R) (n k : nat) (m0 : list (option R * option R)).
  Hypothesis Hk : (k <= length m0)%nat.

  Record good (s : cstate R) : Prop := {
    g_m : exists j, fst s = m0 ++ repeat aux j /\ co_vars (snd s) = seq (length m0) j;
    g_wf : wf_quad (co_quad (snd s));
    g_q : Forall (spk n k (length (fst s))) (quad_vars (co_quad (snd s)));
    g_c : Forall (fun a => wf_aff a /\ Forall (spk n k (length (fst s))) (a_vars a) /\ small inf a) (co_eqs (snd s) ++ co_ineqs (snd s)) }.
  Definition low (s : cstate R) (F : list R -> R) (w : R) : Prop :=
    forall pt, (forall i, (length m0 <= i < length (fst s))%nat -> - eps <= nth i pt 0) -> near_cnts eps (snd s) pt ->
      F pt - w * eps <= quad_value (co_quad (snd s)) pt.

  Lemma spk_le a b l : (a <= b)%nat -> Forall (spk n k a) l -> Forall (spk n k b) l.
  Proof. clear Hk. intros H. apply Forall_impl. unfold spk. intros v. lia. Qed.
  Lemma in_spk b l : Forall (fun v => (v < n)%nat) l -> Forall (spk n k b) l.
  Proof. clear Hk. apply Forall_impl. unfold spk. intros v. lia. Qed.
  Lemma good_cnts_le a b (l : list (aff R)) : (a <= b)%nat -> Forall (fun e => wf_aff e /\ Forall (spk n k a) (a_vars e) /\ small inf e) l ->
    Forall (fun e => wf_aff e /\ Forall (spk n k b) (a_vars e) /\ small inf e) l.
  Proof. intros H. apply Forall_impl. intros e (A & B & C). split; [exact A|]. split; [eapply spk_le; eassumption|exact C]. Qed.
  Lemma quad_vars_inc_aff (q : quad R) a (P : nat -> Prop) : Forall P (quad_vars q) -> Forall P (a_vars a) -> Forall P (quad_vars (quad_inc_aff q a)).
  Proof.
    unfold quad_vars, quad_inc_aff. cbn [q_aff q_vars1 q_vars2 aff_inc a_vars]. intros A B. apply Forall_app in A as [A1 A2].
    apply Forall_app. split; [apply Forall_app; split; assumption|exact A2].
  Qed.
  Lemma quad_vars_inc (q : quad R) a (P : nat -> Prop) : Forall P (quad_vars q) -> Forall P (quad_vars a) -> Forall P (quad_vars (quad_inc q a)).
  Proof.
    unfold quad_vars, quad_inc. cbn [q_aff q_vars1 q_vars2 aff_inc a_vars]. intros A B. apply Forall_app in A as [A1 A2]. apply Forall_app in A2 as [A2 A3].
    apply Forall_app in B as [B1 B2]. apply Forall_app in B2 as [B2 B3].
    apply Forall_app. split; [apply Forall_app; split; assumption|]. apply Forall_app. split; apply Forall_app; split; assumption.
  Qed.
  Lemma quad_inc_aff_wf (q : quad R) a : wf_quad q -> wf_aff a -> wf_quad (quad_inc_aff q a).
  Proof. intros (A & B & C) D. unfold quad_inc_aff. split; [apply aff_inc_wf; assumption|]. split; assumption. Qed.

  Lemma good_empty : good (m0, cobj_empty).
  Proof.
    constructor; cbn [fst snd cobj_empty co_quad co_vars co_eqs co_ineqs].
    - exists 0%nat. cbn. rewrite app_nil_r. split; reflexivity.
    - split; [reflexivity|split; reflexivity].
    - constructor.
    - constructor.
  Qed.
  Lemma low_empty : low (m0, cobj_empty) (fun _ => 0) 0.
  Proof. intros pt _ _. cbn [snd cobj_empty co_quad]. rewrite quad_const_value. rnum. lra. Qed.

  Lemma good_hinge s a c : good s -> aff_in n a -> small inf a -> good (add_hinge s a c).
  Proof using Hk.
    intros [(j & M1 & M2) W Q C] [Wa Va] Sa. destruct s as [m o]. cbn [fst snd] in *.
    assert (L : length m = (length m0 + j)%nat) by (rewrite M1, app_length, repeat_length; reflexivity).
    unfold add_hinge. cbn [ModelingModel.add_var fst snd]. constructor; cbn [fst snd co_quad co_vars co_eqs co_ineqs].
    - exists (S j). rewrite M2. rewrite seq_S, <- L. split; [|reflexivity]. rewrite M1, <- app_assoc. f_equal.
      replace [(Some nzero, @None R)] with (repeat aux 1) by reflexivity. rewrite <- repeat_app. f_equal. lia.
    - apply quad_inc_aff_wf; [exact W|reflexivity].
    - rewrite app_length. cbn [length]. apply quad_vars_inc_aff; [eapply spk_le; [|exact Q]; lia|]. constructor; [unfold spk; lia|constructor].
    - rewrite app_length. cbn [length]. rewrite app_assoc. apply Forall_snoc. split; [eapply good_cnts_le; [|exact C]; lia|].
      split; [apply aff_inc_wf; [exact Wa|reflexivity]|]. split.
      + cbn [aff_dec_var aff_dec aff_inc a_vars]. apply Forall_app. split; [apply in_spk; exact Va|]. constructor; [unfold spk; lia|constructor].
      + unfold small in *. cbn. rnum. lra.
  Qed.
  Lemma low_hinge s F w a c : good s -> aff_in n a -> 0 <= c -> low s F w -> low (add_hinge s a c) (fun pt => F pt + c * Rmax (aff_value a pt) 0) (w + c).
  Proof using Hk.
    intros [(j & M1 & M2) W Q C] [Wa Va] Hc Lo pt B [E I]. destruct s as [m o]. cbn [fst snd] in *.
    assert (L : length m = (length m0 + j)%nat) by (rewrite M1, app_length, repeat_length; reflexivity).
    unfold add_hinge in *. cbn [ModelingModel.add_var fst snd co_quad co_vars co_eqs co_ineqs] in *. rewrite app_length in B. cbn [length] in B.
    apply Forall_snoc in I as [I J]. unfold aff_dec_var in J. rewrite aff_dec_value, aff_var_value in J by exact Wa.
    specialize (Lo pt). cbn [fst snd] in Lo. specialize (Lo ltac:(intros; apply B; lia) (conj E I)). pose proof (B (length m) ltac:(lia)) as Bh.
    rewrite quad_inc_aff_value by exact W. rewrite aff_scale_value, aff_var_value.
    assert (G : c * (Rmax (aff_value a pt) 0 - eps) <= c * nth (length m) pt 0) by (apply Rmult_le_compat_l; [exact Hc|]; unfold Rmax; destruct (Rle_dec _ _); lra).
    lra.
  Qed.

  Lemma good_abs s a c : good s -> aff_in n a -> small inf a -> good (add_abs s a c).
  Proof using Hk.
    intros [(j & M1 & M2) W Q C] [Wa Va] Sa. destruct s as [m o]. cbn [fst snd] in *.
    assert (L : length m = (length m0 + j)%nat) by (rewrite M1, app_length, repeat_length; reflexivity).
    unfold add_abs. cbn [ModelingModel.add_var fst snd].
    assert (Hlen1 : length (m ++ [(Some (@nzero R _), @None R)]) = S (length m)) by (rewrite app_length; cbn; lia).
    assert (Hlen : length ((m ++ [(Some nzero, None)]) ++ [(Some (@nzero R _), @None R)]) = S (S (length m))) by (rewrite !app_length; cbn; lia).
    constructor; cbn [fst snd co_quad co_vars co_eqs co_ineqs]; rewrite ?Hlen, ?Hlen1.
    - exists (j + 2)%nat. rewrite M2, seq_app, <- L. split; [|reflexivity].
      rewrite M1, <- !app_assoc. f_equal. replace ([(Some nzero, @None R)] ++ [(Some nzero, @None R)]) with (repeat aux 2) by reflexivity. rewrite <- repeat_app. reflexivity.
    - apply quad_inc_aff_wf; [exact W|reflexivity].
    - apply quad_vars_inc_aff; [eapply spk_le; [|exact Q]; lia|]. constructor; [unfold spk; lia|constructor; [unfold spk; lia|constructor]].
    - apply Forall_app in C as [C1 C2]. apply Forall_app. split; [|eapply good_cnts_le; [|exact C2]; lia]. apply Forall_snoc. split; [eapply good_cnts_le; [|exact C1]; lia|].
      split; [unfold wf_aff in *; cbn [a_coeffs a_vars]; rewrite !app_length, Wa; reflexivity|]. split; [|exact Sa].
      cbn [a_vars]. apply Forall_app. split; [apply in_spk; exact Va|]. constructor; [unfold spk; lia|constructor; [unfold spk; lia|constructor]].
  Qed.
  Lemma low_abs s F w a c : good s -> aff_in n a -> 0 <= c -> low s F w -> low (add_abs s a c) (fun pt => F pt + c * Rabs (aff_value a pt)) (w + 3 * c).
  Proof using Hk.
    intros [(j & M1 & M2) W Q C] [Wa Va] Hc Lo pt B [E I]. destruct s as [m o]. cbn [fst snd] in *.
    assert (L : length m = (length m0 + j)%nat) by (rewrite M1, app_length, repeat_length; reflexivity).
    assert (Hlen1 : length (m ++ [(Some (@nzero R _), @None R)]) = S (length m)) by (rewrite app_length; cbn; lia).
    assert (Hlen : length ((m ++ [(Some nzero, None)]) ++ [(Some (@nzero R _), @None R)]) = S (S (length m))) by (rewrite !app_length; cbn; lia).
    unfold add_abs in *. cbn [ModelingModel.add_var fst snd co_quad co_vars co_eqs co_ineqs] in *. rewrite Hlen in B. rewrite Hlen1 in E |- *.
    apply Forall_snoc in E as [E J]. rewrite abs_eq_value in J by exact Wa.
    specialize (Lo pt). cbn [fst snd] in Lo. specialize (Lo ltac:(intros; apply B; lia) (conj E I)).
    pose proof (B (length m) ltac:(lia)) as B1. pose proof (B (S (length m)) ltac:(lia)) as B2.
    rewrite quad_inc_aff_value by exact W. rewrite abs_cost_value.
    assert (G : c * (Rabs (aff_value a pt) - 3 * eps) <= c * (nth (length m) pt 0 + nth (S (length m)) pt 0)).
    { apply Rmult_le_compat_l; [exact Hc|]. unfold Rabs. destruct (Rcase_abs _); lra. }
    lra.
  Qed.

  Lemma good_quad s q : good s -> quad_in n q -> good (add_quad s q).
  Proof.
    intros [M W Q C] (Wq & [_ V0] & V1 & V2). constructor; cbn [add_quad fst snd co_quad co_vars co_eqs co_ineqs]; [exact M| | |exact C].
    - apply quad_inc_wf; assumption.
    - apply quad_vars_inc; [exact Q|]. unfold quad_vars. apply Forall_app. split; [apply in_spk; exact V0|]. apply Forall_app. split; apply in_spk; assumption.
  Qed.
  Lemma low_quad s F w q : good s -> quad_in n q -> low s F w -> low (add_quad s q) (fun pt => F pt + quad_value q pt) w.
  Proof. intros [M W Q C] _ Lo pt B N. specialize (Lo pt B N). cbn [add_quad snd co_quad]. rewrite quad_inc_value by exact W. lra. Qed.
  Lemma good_aff s a : good s -> aff_in n a -> good (add_aff s a).
  Proof.
    intros [M W Q C] [Wa Va]. constructor; cbn [add_aff fst snd co_quad co_vars co_eqs co_ineqs]; [exact M| | |exact C].
    - apply quad_inc_aff_wf; assumption.
    - apply quad_vars_inc_aff; [exact Q|]. apply in_spk. exact Va.
  Qed.
  Lemma low_aff s F w a : good s -> aff_in n a -> low s F w -> low (add_aff s a) (fun pt => F pt + aff_value a pt) w.
  Proof. intros [M W Q C] _ Lo pt B N. specialize (Lo pt B N). cbn [add_aff snd co_quad]. rewrite quad_inc_aff_value by exact W. lra. Qed.

  Lemma low_eq s F w F' w' : low s F w -> (forall pt, F pt = F' pt) -> w = w' -> low s F' w'.
  Proof. intros Lo H <- pt B N. rewrite <- H. apply Lo; assumption. Qed.
  Lemma fold_both (f : cstate R -> aff R -> cstate R) (v : aff R -> list R -> R) (w1 : R) (P : aff R -> Prop) :
    (forall s F w a, good s -> low s F w -> P a -> good (f s a) /\ low (f s a) (fun pt => F pt + v a pt) (w + w1)) ->
    forall es s F w, Forall P es -> good s -> low s F w -> good (fold_left f es s) /\ low (fold_left f es s) (fun pt => F pt + rsum (fun a => v a pt) es) (w + INR (length es) * w1).
  Proof.
    intros Hf es. induction es as [|a es IH]; intros s F w He G Lo; cbn [fold_left].
    - split; [exact G|]. eapply low_eq; [exact Lo| |cbn; ring]. intros pt. rewrite rsum_nil. ring.
    - inversion_clear He. destruct (Hf s F w a G Lo H) as [G1 L1]. destruct (IH _ _ _ H0 G1 L1) as [G2 L2]. split; [exact G2|].
      eapply low_eq; [exact L2| |]; [intros pt; cbn beta; rewrite rsum_cons; ring|]. change (length (a :: es)) with (S (length es)). rewrite S_INR. ring.
  Qed.

  Lemma one_op s F w o : op_ok n o -> op_small inf o -> good s -> low s F w -> good (apply_op s o) /\ low (apply_op s o) (fun pt => F pt + op_exact pt o) (w + op_weight o).
  Proof using Hk.
    intros Ho Hs G Lo. destruct o; cbn [apply_op op_exact op_ok op_small op_weight] in *.
    - split; [apply good_aff; assumption|]. eapply low_eq; [apply low_aff; eassumption|reflexivity|ring].
    - split; [apply good_quad; assumption|]. eapply low_eq; [apply low_quad; eassumption|reflexivity|ring].
    - destruct Ho. split; [apply good_hinge; assumption|]. apply low_hinge; assumption.
    - destruct Ho. split; [apply good_abs; assumption|]. apply low_abs; assumption.
    - destruct (fold_both (fun s a => add_hinge s a none_) (fun a x => Rmax (aff_value a x) 0) 1 (fun a => aff_in n a /\ small inf a)) with (es := es) (s := s) (F := F) (w := w) as [G1 L1]; try assumption.
      + intros s' F' w' a G' L' [A B]. split; [apply good_hinge; assumption|]. eapply low_eq; [apply low_hinge; try eassumption; rnum; lra|intros pt; cbn; rnum; ring|rnum; ring].
      + rewrite Forall_forall in *. intros a Ha. split; auto.
      + split; [exact G1|]. eapply low_eq; [exact L1|reflexivity|ring].
    - destruct (fold_both (fun s a => add_abs s a none_) (fun a x => Rabs (aff_value a x)) 3 (fun a => aff_in n a /\ small inf a)) with (es := es) (s := s) (F := F) (w := w) as [G1 L1]; try assumption.
      + intros s' F' w' a G' L' [A B]. split; [apply good_abs; assumption|]. eapply low_eq; [apply low_abs; try eassumption; rnum; lra|intros pt; cbn; rnum; ring|rnum; ring].
      + rewrite Forall_forall in *. intros a Ha. split; auto.
      + split; [exact G1|]. eapply low_eq; [exact L1|reflexivity|ring].
    - destruct (fold_both (fun s a => add_quad s (aff_square a)) (fun a x => aff_value a x * aff_value a x) 0 (aff_in n)) with (es := es) (s := s) (F := F) (w := w) as [G1 L1]; try assumption.
      + intros s' F' w' a G' L' A. split; [apply good_quad; [assumption|apply quad_in_square; exact A]|].
        eapply low_eq; [apply low_quad; [eassumption|apply quad_in_square; exact A|eassumption]| |ring]. intros pt. cbn beta. rewrite aff_square_value by apply A. reflexivity.
      + split; [exact G1|]. eapply low_eq; [exact L1|reflexivity|ring].
    - contradiction.
  Qed.
  Lemma all_ops ops : forall s F w, Forall (fun o => op_ok n o /\ op_small inf o) ops -> good s -> low s F w ->
    good (fold_left apply_op ops s) /\ low (fold_left apply_op ops s) (fun pt => F pt + rsum (op_exact pt) ops) (w + rsum op_weight ops).
  Proof using Hk.
    induction ops as [|o ops IH]; intros s F w Ho G Lo; cbn [fold_left].
    - split; [exact G|]. eapply low_eq; [exact Lo|intros pt; rewrite rsum_nil; ring|rewrite rsum_nil; ring].
    - inversion_clear Ho. destruct H as [A B]. destruct (one_op s F w o A B G Lo) as [G1 L1]. destruct (IH _ _ _ H0 G1 L1) as [G2 L2]. split; [exact G2|].
      eapply low_eq; [exact L2|intros pt; cbn beta; rewrite rsum_cons; ring|rewrite rsum_cons; ring].
  Qed.
  Lemma build_good ops : Forall (fun o => op_ok n o /\ op_small inf o) ops -> good (build m0 ops) /\ low (build m0 ops) (fun pt => rsum (op_exact pt) ops) (rsum op_weight ops).
  Proof using Hk.
    intros Ho. destruct (all_ops ops (m0, cobj_empty) _ _ Ho good_empty low_empty) as [G Lo]. split; [exact G|]. eapply low_eq; [exact Lo|intros; cbn beta; ring|ring].
  Qed.
End Objective.

(** ** all the objectives of a pass *)
Definition obj_good (inf : R) (n k len : nat) (o : cobj R) : Prop :=
  wf_quad (co_quad o) /\ Forall (spk n k len) (quad_vars (co_quad o)) /\
  Forall (fun a => wf_aff a /\ Forall (spk n k len) (a_vars a) /\ small inf a) (co_eqs o ++ co_ineqs o).
Lemma obj_good_le inf n k a b o : (a <= b)%nat -> obj_good inf n k a o -> obj_good inf n k b o.
Proof. intros H (A & B & C). split; [exact A|]. split; [eapply spk_le; eassumption|eapply good_cnts_le; eassumption]. Qed.
Definition ops_ok (inf : R) (n : nat) : list (list (op R)) -> Prop := Forall (Forall (fun o => op_ok n o /\ op_small inf o)).

Lemma build_all_app (a b : list (list (op R))) : forall m, build_all m (a ++ b) = let (m1, o1) := build_all m a in let (m2, o2) := build_all m1 b in (m2, o1 ++ o2).
Proof.
  induction a as [|ops a IH]; intros m; cbn [app build_all]; [destruct (build_all m b); reflexivity|].
  destruct (build m ops) as [m1 o1]. rewrite IH. destruct (build_all m1 a) as [m2 o2]. destruct (build_all m2 b) as [m3 o3]. reflexivity.
Qed.
Definition cnt_opss (cs : list (ccnts R)) (ks : list R) : list (list (op R)) := map (fun ck => cnt_to_ops (fst ck) (snd ck)) (combine cs ks).
Lemma costs_build (cs : list (ccnts R)) : forall m ks, cnts_to_costs m cs ks = build_all m (cnt_opss cs ks).
Proof.
  induction cs as [|c cs IH]; intros m [|mu ks]; try reflexivity. cbn [cnts_to_costs cnt_opss combine map build_all fst snd].
  destruct (build m (cnt_to_ops c mu)) as [m1 o1]. rewrite IH. reflexivity.
Qed.

Lemma build_all_good inf eps n k : forall opss m m' os, (k <= length m)%nat -> ops_ok inf n opss -> build_all m opss = (m', os) ->
  exists j, m' = m ++ repeat aux j /\ flat_map (@co_vars R) os = seq (length m) j /\ Forall (obj_good inf n k (length m')) os /\
    forall pt, (forall i, (length m <= i < length m')%nat -> - eps <= nth i pt 0) -> Forall (fun o => near_cnts eps o pt) os ->
      rsum (fun ops => rsum (op_exact pt) ops) opss - rsum (fun ops => rsum op_weight ops) opss * eps <= rsum (fun o => quad_value (co_quad o) pt) os.
Proof.
  induction opss as [|ops opss IH]; intros m m' os Hk Ho E; cbn [build_all] in E.
  - injection E as <- <-. exists 0%nat. cbn [repeat seq flat_map]. rewrite app_nil_r. split; [reflexivity|]. split; [reflexivity|]. split; [constructor|].
    intros pt _ _. rewrite !rsum_nil. lra.
  - inversion_clear Ho. destruct (build m ops) as [m1 o1] eqn:Eb. destruct (build_all m1 opss) as [m2 os2] eqn:Ea. injection E as <- <-.
    destruct (build_good inf eps n k m Hk ops H) as [[(j1 & M1 & M2) W Q C] Lo]. rewrite Eb in M1, M2, W, Q, C, Lo. cbn [fst snd] in *.
    assert (L1 : length m1 = (length m + j1)%nat) by (rewrite M1, app_length, repeat_length; reflexivity).
    destruct (IH m1 m2 os2) as (j2 & N1 & N2 & N3 & N4); [lia|exact H0|exact Ea|].
    assert (L2 : length m2 = (length m1 + j2)%nat) by (rewrite N1, app_length, repeat_length; reflexivity).
    exists (j1 + j2)%nat. split; [|split; [|split]].
    + rewrite N1, M1, <- app_assoc, <- repeat_app. reflexivity.
    + cbn [flat_map]. rewrite M2, N2, L1, seq_app. reflexivity.
    + constructor; [|exact N3]. apply (obj_good_le inf n k (length m1)); [lia|]. split; [exact W|]. split; assumption.
    + intros pt B Ne. inversion_clear Ne. rewrite !rsum_cons.
      specialize (N4 pt ltac:(intros i Hi; apply B; lia) H2). specialize (Lo pt). cbn [fst snd] in Lo. specialize (Lo ltac:(intros i Hi; apply B; lia) H1). lra.
Qed.

(** exact solutions *)
Lemma build_all_rep inf n : forall opss (m m' : list (option R * option R)) os done F, ops_ok inf n opss -> (n <= length m)%nat -> build_all m opss = (m', os) ->
  Rep n (length m) (all_feasible n m done) (fun pt => rsum (fun o => quad_value (co_quad o) pt) done) F ->
  Rep n (length m') (all_feasible n m' (done ++ os)) (fun pt => rsum (fun o => quad_value (co_quad o) pt) (done ++ os)) (fun x => F x + rsum (fun ops => rsum (op_exact x) ops) opss).
Proof.
  induction opss as [|ops opss IH]; intros m m' os done F Ho Hn E Hr; cbn [build_all] in E.
  - injection E as <- <-. rewrite app_nil_r. eapply Rep_ext; [exact Hr|..]; intros; try tauto. rewrite rsum_nil. ring.
  - inversion_clear Ho. destruct (build m ops) as [m1 o1] eqn:Eb. destruct (build_all m1 opss) as [m2 os2] eqn:Ea. injection E as <- <-.
    assert (Ho : Forall (op_ok n) ops) by (eapply Forall_impl; [|exact H]; cbn; tauto).
    pose proof (Inv_ops n (length m) _ _ Hn ops (m, cobj_empty) _ (Inv_empty _ _ _ _ _ Hr) Ho) as (Hl1 & _ & Hr1).
    fold (build m ops) in Hl1, Hr1. rewrite Eb in Hl1, Hr1. cbn [fst snd] in *.
    destruct (fold_ops_prefix ops m cobj_empty) as [t Ht]. fold (build m ops) in Ht. rewrite Eb in Ht. cbn [fst] in Ht.
    replace (done ++ o1 :: os2) with ((done ++ [o1]) ++ os2) by (rewrite <- app_assoc; reflexivity).
    eapply Rep_ext; [apply (IH m1 m2 os2 (done ++ [o1]) (fun x => F x + rsum (op_exact x) ops) H0 ltac:(lia) Ea)|..].
    + eapply Rep_ext; [exact Hr1|..].
      * intros pt Hpt. unfold all_feasible, obj_feasible. cbn [fst snd]. rewrite Forall_snoc. rewrite Ht. rewrite (bounds_split n m t pt Hn). tauto.
      * intros pt Hpt. rewrite rsum_app, rsum_cons, rsum_nil. ring.
      * intros x Hx. reflexivity.
    + intros; tauto.
    + intros; reflexivity.
    + intros x Hx. rewrite rsum_cons. ring.
Qed.
Lemma Rep_dead n k : (n <= k)%nat -> Rep n (length (repeat (@None R, @None R) k)) (all_feasible n (repeat (None, None) k) []) (fun pt => rsum (fun o => quad_value (co_quad o) pt) []) (fun _ => 0).
Proof.
  intros Hn. rewrite repeat_length.
  assert (A : forall pt, all_feasible n (repeat (None, None) k) [] pt).
  { intros pt. split; [|constructor]. intros i b _ E. apply nth_error_In, repeat_spec in E. subst b. split; exact I. }
  split; [exact Hn|]. split; [intros pt z _; split; [split; intros; apply A|reflexivity]|]. intros x Hx. split.
  - intros. rewrite rsum_nil. lra.
  - exists (repeat 0 (k - n)). rewrite repeat_length. split; [lia|]. split; [apply A|reflexivity].
Qed.

(** ** the pass *)
Lemma cnt_opss_ok inf n cs : forall ks, Forall (fun c => Forall (fun a => aff_in n a /\ small inf a) (cc_eqs c ++ cc_ineqs c)) cs -> Forall (fun m => 0 <= m) ks -> ops_ok inf n (cnt_opss cs ks).
Proof.
  induction cs as [|c cs IH]; intros [|mu ks] Hc Hk; try constructor.
  - inversion_clear Hc. inversion_clear Hk. cbn [fst snd cnt_to_ops]. apply Forall_app in H as [H3 H4].
    apply Forall_app. split; rewrite Forall_map; (eapply Forall_impl; [|eassumption]); cbn; tauto.
  - inversion_clear Hc. inversion_clear Hk. apply IH; assumption.
Qed.
Lemma pass_ops_ok inf n p : pass_ok inf n p -> ops_ok inf n (p_costs p) /\ ops_ok inf n (cnt_opss (p_cnts p) (p_mu p)).
Proof. intros (A & B & C & D & E). split; [exact A|]. apply cnt_opss_ok; assumption. Qed.
Lemma cnt_opss_exact x cs : forall ks, rsum (fun ops => rsum (op_exact x) ops) (cnt_opss cs ks) =
  rsum (fun ck => snd ck * (rsum (fun a => Rabs (aff_value a x)) (cc_eqs (fst ck)) + rsum (fun a => Rmax (aff_value a x) 0) (cc_ineqs (fst ck)))) (combine cs ks).
Proof.
  intros ks. unfold cnt_opss. rewrite rsum_map. apply rsum_ext. intros [c mu] _. cbn [fst snd]. unfold cnt_to_ops. rewrite rsum_app, !rsum_map. cbn [op_exact].
  rewrite Rmult_plus_distr_l, <- !rsum_scal. reflexivity.
Qed.
Lemma rsum_const {A} (c : R) (l : list A) : rsum (fun _ => c) l = c * INR (length l).
Proof. induction l as [|a l IH]; [rewrite rsum_nil; cbn; ring|]. rewrite rsum_cons, IH. change (length (a :: l)) with (S (length l)). rewrite S_INR. ring. Qed.
Lemma cnt_opss_weight cs : forall ks, rsum (fun ops => rsum op_weight ops) (cnt_opss cs ks) =
  rsum (fun ck => snd ck * (3 * INR (length (cc_eqs (fst ck))) + INR (length (cc_ineqs (fst ck))))) (combine cs ks).
Proof.
  intros ks. unfold cnt_opss. rewrite rsum_map. apply rsum_ext. intros [c mu] _. cbn [fst snd]. unfold cnt_to_ops. rewrite rsum_app, !rsum_map. cbn [op_weight].
  rewrite !rsum_const. ring.
Qed.
Definition pass_opss (p : cpass R) : list (list (op R)) := p_costs p ++ cnt_opss (p_cnts p) (p_mu p).
Lemma merit_opss p x : convex_merit p x = rsum (fun ops => rsum (op_exact x) ops) (pass_opss p).
Proof. unfold convex_merit, pass_opss. rewrite rsum_app, cnt_opss_exact. reflexivity. Qed.
Lemma weight_opss p : cost_weight p + cnt_weight p = rsum (fun ops => rsum op_weight ops) (pass_opss p).
Proof. unfold cost_weight, cnt_weight, pass_opss. rewrite rsum_app, cnt_opss_weight. reflexivity. Qed.
Lemma pass_objs_split k p : exists m1 os1 m2 os2, build_all (repeat (None, None) k) (p_costs p) = (m1, os1) /\ build_all m1 (cnt_opss (p_cnts p) (p_mu p)) = (m2, os2) /\
  build_all (repeat (None, None) k) (pass_opss p) = (m2, os1 ++ os2) /\ pass_objs k p = (skipn k m2, os1, os2).
Proof.
  unfold pass_objs, pass_opss. rewrite build_all_app. destruct (build_all (repeat (None, None) k) (p_costs p)) as [m1 os1].
  rewrite costs_build. destruct (build_all m1 (cnt_opss (p_cnts p) (p_mu p))) as [m2 os2] eqn:E. exists m1, os1, m2, os2. auto.
Qed.

Lemma op_exact_app n o x z : op_ok n o -> length x = n -> op_exact (x ++ z) o = op_exact x o.
Proof.
  intros Ho Hx. assert (A : forall a, aff_in n a -> aff_value a (x ++ z) = aff_value a x) by (intros a [_ V]; apply aff_value_app; rewrite Hx; exact V).
  assert (B : forall (f : R -> R) es, Forall (aff_in n) es -> rsum (fun a => f (aff_value a (x ++ z))) es = rsum (fun a => f (aff_value a x)) es).
  { intros f es He. apply rsum_ext. intros a Ha. rewrite A; [reflexivity|]. rewrite Forall_forall in He. auto. }
  destruct o; cbn [op_exact op_ok] in *.
  - apply A; exact Ho.
  - apply quad_value_app. rewrite Hx. exact Ho.
  - rewrite A by tauto. reflexivity.
  - rewrite A by tauto. reflexivity.
  - apply (B (fun v => Rmax v 0)). exact Ho.
  - apply (B Rabs). exact Ho.
  - apply (B (fun v => v * v)). exact Ho.
  - reflexivity.
Qed.
Lemma opss_exact_app inf n opss x z : ops_ok inf n opss -> length x = n -> rsum (fun ops => rsum (op_exact (x ++ z)) ops) opss = rsum (fun ops => rsum (op_exact x) ops) opss.
Proof.
  intros Ho Hx. apply rsum_ext. intros ops Hops. apply rsum_ext. intros o Hin. unfold ops_ok in Ho. rewrite Forall_forall in Ho. specialize (Ho ops Hops). rewrite Forall_forall in Ho.
  apply (op_exact_app n); [apply Ho; exact Hin|exact Hx].
Qed.

Lemma fold_obj (os : list (cobj R)) pt : forall q, wf_quad q -> Forall (fun o => wf_quad (co_quad o)) os ->
  quad_value (fold_left (fun q o => quad_inc q (co_quad o)) os q) pt = quad_value q pt + rsum (fun o => quad_value (co_quad o) pt) os.
Proof.
  induction os as [|o os IH]; intros q W Ho; cbn [fold_left]; [rewrite rsum_nil; ring|]. inversion_clear Ho.
  rewrite IH; [|apply quad_inc_wf; assumption|assumption]. rewrite quad_inc_value, rsum_cons by exact W. ring.
Qed.
Lemma fold_obj_in (P : nat -> Prop) (os : list (cobj R)) : forall q, wf_quad q -> Forall P (quad_vars q) -> Forall (fun o => wf_quad (co_quad o) /\ Forall P (quad_vars (co_quad o))) os ->
  wf_quad (fold_left (fun q o => quad_inc q (co_quad o)) os q) /\ Forall P (quad_vars (fold_left (fun q o => quad_inc q (co_quad o)) os q)).
Proof.
  induction os as [|o os IH]; intros q W Q Ho; cbn [fold_left]; [split; assumption|]. inversion_clear Ho. destruct H as [A B].
  apply IH; [apply quad_inc_wf; assumption|apply quad_vars_inc; assumption|assumption].
Qed.
Lemma quad_zero_wf : wf_quad (quad_const (@nzero R _)).
Proof. split; [reflexivity|split; reflexivity]. Qed.

Lemma gone_cnts (os : list (cobj R)) : forall kc i, In i (flat_map fst (obj_gone kc os)) <-> (kc <= i < kc + length (flat_map (@obj_cnts R) os))%nat.
Proof.
  induction os as [|o os IH]; intros kc i; cbn [obj_gone flat_map fst length]; [cbn; lia|]. rewrite in_app_iff, IH, in_seq, app_length. lia.
Qed.
Lemma gone_vars (os : list (cobj R)) : forall kc, flat_map snd (obj_gone kc os) = flat_map (@co_vars R) os.
Proof. induction os as [|o os IH]; intros kc; cbn [obj_gone flat_map snd]; [reflexivity|]. rewrite IH. reflexivity. Qed.

(** what a pass puts into the model *)
Lemma pass_facts inf n k kc p : 0 < inf -> (n <= k)%nat -> pass_ok inf n p ->
  let r := pass_round inf k kc p in
  exists m os1 os2 j, build_all (repeat (None, None) k) (pass_opss p) = (m, os1 ++ os2) /\ pass_objs k p = (skipn k m, os1, os2) /\ m = repeat (None, None) k ++ repeat aux j /\
    r_vars r = repeat (0, inf) j /\ r_cnts r = flat_map (@obj_cnts R) (os1 ++ os2) /\ Forall (obj_good inf n k (k + j)) (os1 ++ os2) /\
    (forall pt, quad_value (r_obj r) pt = rsum (fun o => quad_value (co_quad o) pt) (os1 ++ os2)) /\
    round_ok n k kc r /\ round_clean k kc r /\ consts_ok inf (r_cnts r).
Proof.
  intros Hi Hn Hp r. destruct (pass_objs_split k p) as (m1 & os1 & m2 & os2 & E1 & E2 & E & Eo).
  destruct (pass_ops_ok inf n p Hp) as [O1 O2]. assert (O : ops_ok inf n (pass_opss p)) by (apply Forall_app; split; assumption).
  assert (Hk : (k <= length (repeat (@None R, @None R) k))%nat) by (rewrite repeat_length; lia).
  destruct (build_all_good inf 0 n k (pass_opss p) _ _ _ Hk O E) as (j & M & V & G & _). rewrite repeat_length in V.
  assert (Lm : length m2 = (k + j)%nat) by (rewrite M, app_length, !repeat_length; reflexivity). rewrite Lm in G.
  assert (Sk : skipn k m2 = repeat aux j) by (rewrite M, skipn_app, repeat_length, Nat.sub_diag, skipn_all2 by (rewrite repeat_length; lia); reflexivity).
  exists m2, os1, os2, j. split; [exact E|]. split; [exact Eo|]. split; [exact M|].
  unfold r, pass_round. rewrite Eo, Sk. cbn [r_vars r_cnts r_obj r_solves r_gone].
  assert (Rv : map (of_bnd inf) (repeat aux j) = repeat (0, inf) j) by (clear; induction j; cbn [repeat map]; [reflexivity|]; rewrite IHj; reflexivity).
  assert (Wq : Forall (fun o => wf_quad (co_quad o)) (os1 ++ os2)) by (eapply Forall_impl; [|exact G]; intros o Ho; apply Ho).
  assert (Cs : forall c, In c (flat_map (@obj_cnts R) (os1 ++ os2)) -> wf_aff (snd c) /\ Forall (spk n k (k + j)) (a_vars (snd c)) /\ small inf (snd c)).
  { intros c Hc. apply in_flat_map in Hc as (o & Ho & Hc). rewrite Forall_forall in G. destruct (G o Ho) as (_ & _ & C). rewrite Forall_forall in C.
    unfold obj_cnts in Hc. apply in_app_or in Hc as [Hc|Hc]; apply in_map_iff in Hc as (a & <- & Ha); cbn [snd]; apply C; apply in_or_app; auto. }
  split; [exact Rv|]. split; [reflexivity|]. split; [exact G|]. split; [|split; [|split]].
  - intros pt. rewrite fold_obj, quad_const_value by (try exact quad_zero_wf; exact Wq). rnum. ring.
  - unfold round_ok. cbn [r_vars r_cnts r_obj r_solves r_gone]. rewrite Rv, repeat_length. split; [|split; [|split]].
    + apply Forall_forall. intros c Hc. destruct (Cs c Hc) as (A & B & _). split; assumption.
    + apply (fold_obj_in (spk n k (k + j)) (os1 ++ os2)); [exact quad_zero_wf|constructor|]. eapply Forall_impl; [|exact G]. intros o (A & B & _). split; assumption.
    + apply (fold_obj_in (spk n k (k + j)) (os1 ++ os2)); [exact quad_zero_wf|constructor|]. eapply Forall_impl; [|exact G]. intros o (A & B & _). split; assumption.
    + apply Hp.
  - unfold round_clean. cbn [r_vars r_cnts r_obj r_solves r_gone]. rewrite Rv, repeat_length. split; intros i.
    + rewrite flat_map_app, in_app_iff, !gone_cnts, flat_map_app, app_length. lia.
    + assert (Vi : In i (flat_map (@co_vars R) (os1 ++ os2)) <-> (k <= i < k + j)%nat) by (rewrite V, in_seq; reflexivity).
      rewrite flat_map_app, in_app_iff in Vi. rewrite flat_map_app, in_app_iff, !gone_vars. tauto.
  - apply Forall_forall. intros c Hc. apply Cs. exact Hc.
Qed.

Lemma pass_rounds_ok inf n : forall ps k kc, 0 < inf -> (n <= k)%nat -> Forall (pass_ok inf n) ps ->
  rounds_ok n k kc (pass_rounds inf k kc ps) /\ forall r, In r (pass_rounds inf k kc ps) -> consts_ok inf (r_cnts r).
Proof.
  induction ps as [|p ps IH]; intros k kc Hi Hn Hp; cbn [pass_rounds rounds_ok]; [split; [exact I|intros r []]|]. inversion_clear Hp.
  destruct (pass_facts inf n k kc p Hi Hn H) as (m & os1 & os2 & j & _ & _ & _ & _ & _ & _ & _ & A & B & C).
  destruct (IH (k + length (r_vars (pass_round inf k kc p)))%nat (kc + length (r_cnts (pass_round inf k kc p)))%nat Hi ltac:(lia) H0) as [D E].
  split; [split; [exact A|split; [exact B|exact D]]|]. intros r [<-|Hr]; [exact C|exact (E r Hr)].
Qed.

Lemma at_ids_in k (x y : list R) i : (i < length x)%nat -> nth i (at_ids x k y) 0 = nth i x 0.
Proof. intros Hi. unfold at_ids. apply app_nth1. exact Hi. Qed.
Lemma cnt_near_in eps n (c : bool * aff R) x z : Forall (fun v => (v < n)%nat) (a_vars (snd c)) -> length x = n -> (cnt_near eps c (x ++ z) <-> cnt_near eps c x).
Proof. intros V Hx. unfold cnt_near. rewrite aff_value_app by (rewrite Hx; exact V). reflexivity. Qed.

(** from a point that fits the QP up to [eps]: objects and bounds *)
Lemma fits_objects inf eps k cnts (r : round R) lo hi X j (os : list (cobj R)) : 0 < inf -> r_vars r = repeat (0, inf) j -> r_cnts r = flat_map (@obj_cnts R) os ->
  fits_pass inf eps k cnts r lo hi X -> (forall i, (k <= i < k + j)%nat -> - eps <= nth i X 0) /\ Forall (fun o => near_cnts eps o X) os.
Proof.
  intros Hi Ev Ec (A & _ & B). split.
  - intros i Hk. specialize (B (i - k)%nat). rewrite Ev, repeat_length in B. specialize (B ltac:(lia)). rewrite (nth_indep _ (0, 0) (0, inf)), nth_repeat in B by (rewrite repeat_length; lia).
    replace (k + (i - k))%nat with i in B by lia. destruct B as [[B|B] _]; cbn [fst] in B; lra.
  - apply Forall_forall. intros o Ho. split; apply Forall_forall; intros a Ha.
    + apply (A (false, a)). apply in_or_app. right. rewrite Ec. apply in_flat_map. exists o. split; [exact Ho|]. apply in_or_app. left. apply in_map. exact Ha.
    + apply (A (true, a)). apply in_or_app. right. rewrite Ec. apply in_flat_map. exists o. split; [exact Ho|]. apply in_or_app. right. apply in_map. exact Ha.
Qed.

(** any allowed point extends to one of the QP with the value of the convex merit function *)
Lemma pass_extends inf n k kc p cnts lo hi z : 0 < inf -> (n <= k)%nat -> pass_ok inf n p -> length z = n -> length lo = n ->
  Forall (fun c => Forall (fun v => (v < n)%nat) (a_vars (snd c))) cnts -> allowed inf 0 cnts lo hi z ->
  exists Y, fits_pass inf 0 k cnts (pass_round inf k kc p) lo hi Y /\ quad_value (r_obj (pass_round inf k kc p)) Y = convex_merit p z.
Proof.
  intros Hi Hn Hp Hz Hl Hc [A1 A2]. destruct (pass_facts inf n k kc p Hi Hn Hp) as (m & os1 & os2 & j & E & _ & M & Rv & Rc & G & Q & _).
  destruct (pass_ops_ok inf n p Hp) as [O1 O2]. assert (O : ops_ok inf n (pass_opss p)) by (apply Forall_app; split; assumption).
  assert (Hm : (n <= length (repeat (@None R, @None R) k))%nat) by (rewrite repeat_length; lia).
  pose proof (build_all_rep inf n (pass_opss p) _ _ _ [] _ O Hm E (Rep_dead n k Hn)) as (_ & _ & Rp).
  cbn [app] in Rp. destruct (Rp z Hz) as [_ (w & Lw & [F1 F2] & F3)]. exists (z ++ w). split; [split; [|split]|].
  - intros c Hin. apply in_app_or in Hin as [Hin|Hin].
    + apply (cnt_near_in 0 n); [|exact Hz|exact (A1 c Hin)]. rewrite Forall_forall in Hc. auto.
    + rewrite Rc in Hin. apply in_flat_map in Hin as (o & Ho & Hin). rewrite Forall_forall in F2. destruct (F2 o Ho) as [F4 F5]. rewrite Forall_forall in F4, F5.
      unfold obj_cnts in Hin. apply in_app_or in Hin as [Hin|Hin]; apply in_map_iff in Hin as (a & <- & Ha); unfold cnt_near; cbn [fst snd].
      * rewrite (F4 a Ha). lra.
      * exact (F5 a Ha).
  - intros i Hlo. rewrite app_nth1 by lia. apply A2. exact Hlo.
  - intros i Hlo. rewrite Rv in *. rewrite repeat_length in Hlo. rewrite (nth_indep _ (0, 0) (0, inf)), nth_repeat by (rewrite repeat_length; lia). cbn [fst snd].
    specialize (F1 (k + i)%nat aux ltac:(lia)). rewrite M, nth_error_app2 in F1 by (rewrite repeat_length; lia). rewrite repeat_length in F1.
    replace (k + i - k)%nat with i in F1 by lia. rewrite (nth_error_repeat aux Hlo) in F1. specialize (F1 eq_refl). destruct F1 as [F1 _]. cbn [fst] in F1.
    split; [right; lra|left; lra].
  - rewrite Q, F3, merit_opss. ring.
Qed.

(** a solution of the QP is a best step *)
Lemma pass_best inf eps delta n k kc p cnts lo hi x y : 0 < inf -> (n <= k)%nat -> pass_ok inf n p -> length x = n -> length lo = n ->
  Forall (fun c => Forall (fun v => (v < n)%nat) (a_vars (snd c))) cnts -> solves_pass inf eps delta k cnts (pass_round inf k kc p) lo hi (at_ids x k y) ->
  best_step inf eps delta cnts lo hi p x.
Proof.
  intros Hi Hn Hp Hx Hl Hc [F Best]. split.
  - destruct F as (A & B & _). split.
    + intros c Hin. apply (cnt_near_in eps n c x (repeat 0 (k - length x) ++ y)); [|exact Hx|].
      * rewrite Forall_forall in Hc. auto.
      * apply A. apply in_or_app. left. exact Hin.
    + intros i Hlo. rewrite <- (at_ids_in k x y) by lia. apply B. exact Hlo.
  - intros z Hz Az. destruct (pass_extends inf n k kc p cnts lo hi z Hi Hn Hp ltac:(lia) Hl Hc Az) as (Y & FY & VY). specialize (Best Y FY). rewrite VY in Best.
    destruct (pass_facts inf n k kc p Hi Hn Hp) as (m & os1 & os2 & j & E & _ & M & Rv & Rc & _ & Q & _).
    destruct (fits_objects inf eps k cnts _ lo hi _ j (os1 ++ os2) Hi Rv Rc F) as [Bn Ne].
    destruct (pass_ops_ok inf n p Hp) as [O1 O2]. assert (O : ops_ok inf n (pass_opss p)) by (apply Forall_app; split; assumption).
    assert (Hm : (k <= length (repeat (@None R, @None R) k))%nat) by (rewrite repeat_length; lia).
    destruct (build_all_good inf eps n k (pass_opss p) _ _ _ Hm O E) as (j' & M' & _ & _ & Lo). rewrite repeat_length in Lo.
    assert (Lm : length m = (k + j)%nat) by (rewrite M, app_length, !repeat_length; reflexivity). rewrite Lm in Lo.
    specialize (Lo _ Bn Ne). rewrite <- Q in Lo. unfold at_ids in Lo. rewrite (opss_exact_app inf n) in Lo by assumption. rewrite <- merit_opss, <- weight_opss in Lo.
    unfold at_ids in Best. lra.
Qed.

(** lists with the same entries *)
Lemma aff_value_nth (a : aff R) X Y : (forall i, nth i X 0 = nth i Y 0) -> aff_value a X = aff_value a Y.
Proof. intros H. rewrite !aff_value_sum. f_equal. apply rsum_ext. intros [c v] _. cbn. rewrite H. reflexivity. Qed.
Lemma quad_value_nth (q : quad R) X Y : (forall i, nth i X 0 = nth i Y 0) -> quad_value q X = quad_value q Y.
Proof. intros H. rewrite !quad_value_sum. rewrite (aff_value_nth _ X Y H). f_equal. apply rsum_ext. intros [c [v w]] _. cbn. rewrite !H. reflexivity. Qed.
Lemma fits_nth inf eps k cnts r lo hi X Y : (forall i, nth i X 0 = nth i Y 0) -> fits_pass inf eps k cnts r lo hi X -> fits_pass inf eps k cnts r lo hi Y.
Proof.
  intros H (A & B & C). split; [|split].
  - intros c Hc. specialize (A c Hc). unfold cnt_near in *. rewrite (aff_value_nth _ X Y H) in A. exact A.
  - intros i Hi. rewrite <- H. apply B. exact Hi.
  - intros i Hi. rewrite <- H. apply C. exact Hi.
Qed.
Lemma pad n (X : list R) : exists x z, length x = n /\ forall i, nth i (x ++ z) 0 = nth i X 0.
Proof.
  exists (firstn n (X ++ repeat 0 n)), (skipn n (X ++ repeat 0 n)). split; [rewrite firstn_length, app_length, repeat_length; lia|].
  intros i. rewrite firstn_skipn. destruct (Nat.lt_ge_cases i (length X)) as [Hi|Hi]; [apply app_nth1; exact Hi|].
  rewrite app_nth2 by exact Hi. rewrite (nth_overflow X) by exact Hi. destruct (Nat.lt_ge_cases (i - length X) n); [apply nth_repeat|apply nth_overflow; rewrite repeat_length; assumption].
Qed.

(** a point of the QP and its first [n] values *)
Lemma pass_below inf eps n k kc p cnts lo hi x z : 0 < inf -> (n <= k)%nat -> pass_ok inf n p -> length x = n -> length lo = n ->
  Forall (fun c => Forall (fun v => (v < n)%nat) (a_vars (snd c))) cnts -> fits_pass inf eps k cnts (pass_round inf k kc p) lo hi (x ++ z) ->
  allowed inf eps cnts lo hi x /\ convex_merit p x - (cost_weight p + cnt_weight p) * eps <= quad_value (r_obj (pass_round inf k kc p)) (x ++ z).
Proof.
  intros Hi Hn Hp Hx Hl Hc F. split.
  - destruct F as (A & B & _). split.
    + intros c Hin. apply (cnt_near_in eps n c x z); [|exact Hx|].
      * rewrite Forall_forall in Hc. auto.
      * apply A. apply in_or_app. left. exact Hin.
    + intros i Hlo. specialize (B i Hlo). rewrite app_nth1 in B by lia. exact B.
  - destruct (pass_facts inf n k kc p Hi Hn Hp) as (m & os1 & os2 & j & E & _ & M & Rv & Rc & _ & Q & _).
    destruct (fits_objects inf eps k cnts _ lo hi _ j (os1 ++ os2) Hi Rv Rc F) as [Bn Ne].
    destruct (pass_ops_ok inf n p Hp) as [O1 O2]. assert (O : ops_ok inf n (pass_opss p)) by (apply Forall_app; split; assumption).
    assert (Hm : (k <= length (repeat (@None R, @None R) k))%nat) by (rewrite repeat_length; lia).
    destruct (build_all_good inf eps n k (pass_opss p) _ _ _ Hm O E) as (j' & M' & _ & _ & Lo). rewrite repeat_length in Lo.
    assert (Lm : length m = (k + j)%nat) by (rewrite M, app_length, !repeat_length; reflexivity). rewrite Lm in Lo.
    specialize (Lo _ Bn Ne). rewrite <- Q in Lo. rewrite (opss_exact_app inf n) in Lo by assumption. rewrite <- merit_opss, <- weight_opss in Lo. exact Lo.
Qed.
Lemma pass_no_best inf n k kc p cnts lo hi : 0 < inf -> (n <= k)%nat -> pass_ok inf n p -> length lo = n ->
  Forall (fun c => Forall (fun v => (v < n)%nat) (a_vars (snd c))) cnts -> no_solution inf k cnts (pass_round inf k kc p) lo hi -> no_best inf n cnts lo hi p.
Proof.
  intros Hi Hn Hp Hl Hc U z Hz Az low. destruct (pass_extends inf n k kc p cnts lo hi z Hi Hn Hp Hz Hl Hc Az) as (X & FX & _).
  destruct (U X FX low) as (Y & FY & LY). destruct (pad n Y) as (x & w & Lx & N). exists x. split; [exact Lx|].
  destruct (pass_below inf 0 n k kc p cnts lo hi x w Hi Hn Hp Lx Hl Hc) as [A B]; [apply (fits_nth _ _ _ _ _ _ _ Y); [intros i; symmetry; apply N|exact FY]|].
  split; [exact A|]. rewrite (quad_value_nth _ _ _ N) in B. lra.
Qed.
Lemma pass_empty inf n k kc p cnts lo hi : 0 < inf -> (n <= k)%nat -> pass_ok inf n p -> length lo = n ->
  Forall (fun c => Forall (fun v => (v < n)%nat) (a_vars (snd c))) cnts -> (forall X, ~ fits_pass inf 0 k cnts (pass_round inf k kc p) lo hi X) ->
  forall z, length z = n -> ~ allowed inf 0 cnts lo hi z.
Proof. intros Hi Hn Hp Hl Hc U z Hz Az. destruct (pass_extends inf n k kc p cnts lo hi z Hi Hn Hp Hz Hl Hc Az) as (X & FX & _). exact (U X FX). Qed.
Lemma best_solves inf n k kc p cnts lo hi z : 0 < inf -> (n <= k)%nat -> pass_ok inf n p -> length z = n -> length lo = n ->
  Forall (fun c => Forall (fun v => (v < n)%nat) (a_vars (snd c))) cnts -> best_step inf 0 0 cnts lo hi p z -> exists X, solves_pass inf 0 0 k cnts (pass_round inf k kc p) lo hi X.
Proof.
  intros Hi Hn Hp Hz Hl Hc [Az Best]. destruct (pass_extends inf n k kc p cnts lo hi z Hi Hn Hp Hz Hl Hc Az) as (X & FX & VX). exists X. split; [exact FX|]. intros Y FY.
  destruct (pad n Y) as (x & w & Lx & N).
  destruct (pass_below inf 0 n k kc p cnts lo hi x w Hi Hn Hp Lx Hl Hc) as [A B]; [apply (fits_nth _ _ _ _ _ _ _ Y); [intros i; symmetry; apply N|exact FY]|].
  rewrite (quad_value_nth _ _ _ N) in B. specialize (Best x ltac:(lia) A). lra.
Qed.

(** what the model says of a solution *)
Lemma pass_fair inf eps delta n k kc p cnts lo hi x y m os1 os2 : 0 < inf -> (n <= k)%nat -> pass_ok inf n p -> length x = n -> length lo = n ->
  Forall (fun c => Forall (fun v => (v < n)%nat) (a_vars (snd c))) cnts -> pass_objs k p = (m, os1, os2) ->
  solves_pass inf eps delta k cnts (pass_round inf k kc p) lo hi (at_ids x k y) ->
  fair_merit inf eps delta cnts lo hi p x
    (rsum (fun o => quad_value (co_quad o) (at_ids x k y)) os1 +
     rsum (fun ck => snd ck * (rsum (fun a => Rabs (aff_value a x)) (cc_eqs (fst ck)) + rsum (fun a => Rmax (aff_value a x) 0) (cc_ineqs (fst ck)))) (combine (p_cnts p) (p_mu p))).
Proof.
  intros Hi Hn Hp Hx Hl Hc Eo [F Best].
  destruct (pass_facts inf n k kc p Hi Hn Hp) as (m' & os1' & os2' & j & E & Eo' & M & Rv & Rc & _ & Q & _).
  rewrite Eo in Eo'. injection Eo' as -> <- <-.
  destruct (fits_objects inf eps k cnts _ lo hi _ j (os1 ++ os2) Hi Rv Rc F) as [Bn Ne]. apply Forall_app in Ne as [Ne1 Ne2].
  destruct (pass_ops_ok inf n p Hp) as [O1 O2].
  destruct (pass_objs_split k p) as (m1 & o1 & m2 & o2 & E1 & E2 & E3 & E4). rewrite Eo in E4. injection E4 as _ <- <-. rewrite E in E3. injection E3 as <-.
  assert (Hm : (k <= length (repeat (@None R, @None R) k))%nat) by (rewrite repeat_length; lia).
  destruct (build_all_good inf eps n k (p_costs p) _ _ _ Hm O1 E1) as (j1 & M1 & _ & _ & Lo1). rewrite repeat_length in Lo1.
  assert (Lm1 : length m1 = (k + j1)%nat) by (rewrite M1, app_length, !repeat_length; reflexivity).
  destruct (build_all_good inf eps n k _ m1 _ _ ltac:(lia) O2 E2) as (j2 & M2 & _ & _ & Lo2).
  assert (Lm : length m' = (k + j)%nat) by (rewrite M, app_length, !repeat_length; reflexivity).
  assert (Lm2 : length m' = (length m1 + j2)%nat) by (rewrite M2, app_length, !repeat_length; reflexivity).
  specialize (Lo1 (at_ids x k y) ltac:(intros i Hii; apply Bn; lia) Ne1). specialize (Lo2 (at_ids x k y) ltac:(intros i Hii; apply Bn; lia) Ne2).
  unfold at_ids in Lo1 at 1. unfold at_ids in Lo2 at 1. rewrite (opss_exact_app inf n) in Lo1 by assumption. rewrite (opss_exact_app inf n) in Lo2 by assumption.
  fold (at_ids x k y) in Lo1. rewrite cnt_opss_exact, cnt_opss_weight in Lo2. fold (cnt_weight p) in Lo2. fold (cost_weight p) in Lo1.
  split; [unfold convex_merit; lra|]. intros z Hz Az.
  destruct (pass_extends inf n k kc p cnts lo hi z Hi Hn Hp ltac:(lia) Hl Hc Az) as (Y & FY & VY). specialize (Best Y FY). rewrite VY, Q, rsum_app in Best. lra.
Qed.
