(** Trust-box size, penalty coefficients and final status of the sco optimizer as functions of the
    observable history (trace of events, newest first); specification and proofs for C76, C77. *)
From Coq Require Import List ZArith Bool Lia.
From Verif Require Import Num NumFacts Common ScoOptModel ScoOptSpec ScoOptProofs.
Import ListNotations.

Section Spec.
  Context {T : Type} {NT : Num T}.
  Variable P : oparams T.

  (** failed QPs since the last convexification *)
  Fixpoint ofails_since (tr : list (oevent T)) : nat :=
    match tr with
    | [] | OConvexify :: _ => 0
    | OQP false :: r => S (ofails_since r)
    | _ :: r => ofails_since r
    end.
  (** convexifications since the last penalty change *)
  Fixpoint oconv_since (tr : list (oevent T)) : nat :=
    match tr with
    | [] | OPenalty _ _ _ :: _ => 0
    | OConvexify :: r => S (oconv_since r)
    | _ :: r => oconv_since r
    end.

  Variable box0 : T.
  Fixpoint obox_hist (tr : list (oevent T)) : T :=
    match tr with
    | [] => box0
    | OAccept _ _ :: r => nmul (obox_hist r) (otrust_expand_ratio P)
    | OReject :: r => nmul (obox_hist r) (otrust_shrink_ratio P)
    | OQP false :: r =>
        match Z.compare (Z.of_nat (S (ofails_since r))) (omax_qp_solver_failures P) with
        | Lt => nmul (obox_hist r) (otrust_shrink_ratio P)
        | Eq => omin_trust_box_size P
        | Gt => obox_hist r
        end
    | OPenalty _ _ _ :: r =>
        nfmax (obox_hist r) (nmul (ndiv (omin_trust_box_size P) (otrust_shrink_ratio P)) (ndec 15 (-1)))
    | _ :: r => obox_hist r
    end.

  Variable ncnt : nat.
  Fixpoint ocoeff_hist (tr : list (oevent T)) : list T :=
    match tr with
    | [] => repeat (oinitial_merit_error_coeff P) ncnt
    | OPenalty _ _ after :: _ => after
    | _ :: r => ocoeff_hist r
    end.
  (** one penalty change: which coefficients are multiplied *)
  Definition ocoeff_rule (v b a : list T) : Prop :=
    length a = length b /\
    forall i, (i < length b)%nat ->
      nth i a nzero = (if negb (oinflate_individually P) || nltb (ocnt_tolerance P) (nth i v nzero)
                       then nmul (nth i b nzero) (omerit_coeff_increase_ratio P) else nth i b nzero).
End Spec.

Section Hist.
  Context {T : Type} {NT : Num T} {W : Type}.
  Variable P : oparams T.
  Variable E : oenv T W.
  Variable box0 : T.
  Notation osst := (osst T W).
  Notation bh := (obox_hist P box0).
  Notation ch := (ocoeff_hist P (o_ncnt E)).

  Fixpoint ohist_ok (tr : list (oevent T)) : Prop :=
    match tr with
    | [] => True
    | OQP _ :: r => nleb (omin_trust_box_size P) (bh r) = true /\ ohist_ok r
    | OPenalty v b a :: r => b = ch r /\ ocoeff_rule P v b a /\ ohist_ok r
    | _ :: r => ohist_ok r
    end.
  Definition ohinv (s : osst) : Prop :=
    o_box s = bh (o_trace s) /\ o_merit s = ch (o_trace s) /\ ohist_ok (o_trace s).

  Lemma oinflate_rule (v b : list T) : length v = length b -> oinflate_individually P = true ->
    ocoeff_rule P v b (oinflate P v b).
  Proof.
    intros Hl Hi. unfold ocoeff_rule. rewrite Hi. cbn [negb orb].
    revert b Hl. induction v as [|x v IH]; intros [|y b] Hl; try discriminate; cbn [oinflate length]; [split; [auto|intros; lia]|].
    cbn in Hl. destruct (IH b (ltac:(lia))) as [A B]. split; [congruence|].
    intros [|i] Hi'; cbn [nth]; [reflexivity|]. apply B. lia.
  Qed.

  Lemma ohist_body f s x : ohinv s -> f = Z.of_nat (ofails_since (o_trace s)) ->
    nleb (omin_trust_box_size P) (o_box s) = true -> otr_body P E f s = Ok x ->
    ohinv (xstate x) /\ oconv_since (o_trace (xstate x)) = oconv_since (o_trace s) /\
    openalties (o_trace (xstate x)) = openalties (o_trace s) /\
    match x with
    | XRetry f' s' => f' = Z.of_nat (ofails_since (o_trace s'))
    | XFailed s' => (omax_qp_solver_failures P < Z.of_nat (ofails_since (o_trace s')))%Z
    | _ => True
    end.
  Proof.
    intros (Hb & Hm & Hok) Hf Hl Hx. rewrite Hb in Hl. apply otr_body_spec in Hx as (Hme & _ & Hx).
    unfold ohinv. rewrite Hme, Hm.
    destruct x as [f' s'|s'|s'|s']; cbn [xstate] in *.
    - destruct Hx as (_ & _ & _ & _ & [(-> & -> & ->)|(-> & -> & Hc)]); cbn -[Z.of_nat]; [rewrite Hb; auto 10|].
      split; [split|]; [|split; auto|repeat split; lia].
      destruct Hc as [[-> Hc]|[-> Hc]].
      + assert (E1 : (Z.of_nat (S (ofails_since (o_trace s))) ?= omax_qp_solver_failures P)%Z = Lt) by (apply Z.compare_lt_iff; lia).
        rewrite E1, Hb. reflexivity.
      + assert (E1 : (Z.of_nat (S (ofails_since (o_trace s))) ?= omax_qp_solver_failures P)%Z = Eq) by (apply Z.compare_eq_iff; lia).
        rewrite E1. reflexivity.
    - destruct Hx as (vals & old & new & _ & _ & _ & _ & -> & _ & _ & _ & -> & _). cbn. rewrite Hb. auto 10.
    - destruct Hx as (_ & _ & _ & _ & -> & ->). cbn. auto 10.
    - destruct Hx as (_ & _ & _ & _ & -> & -> & Hc). cbn -[Z.of_nat].
      assert (E1 : (Z.of_nat (S (ofails_since (o_trace s))) ?= omax_qp_solver_failures P)%Z = Gt) by (apply Z.compare_gt_iff; lia).
      rewrite E1. repeat split; auto. lia.
  Qed.

  Lemma ohist_tr fuel f s x : ohinv s -> f = Z.of_nat (ofails_since (o_trace s)) -> otr_loop P E fuel f s = Ok x ->
    ohinv (xstate x) /\ oconv_since (o_trace (xstate x)) = oconv_since (o_trace s) /\
    openalties (o_trace (xstate x)) = openalties (o_trace s) /\
    match x with
    | XFailed s' => (omax_qp_solver_failures P < Z.of_nat (ofails_since (o_trace s')))%Z
    | _ => True
    end.
  Proof.
    revert f s; induction fuel as [|fuel IH]; intros f s HI Hf; cbn [otr_loop];
      destruct (nleb (omin_trust_box_size P) (o_box s)) eqn:El; try discriminate;
      try (intros [= <-]; repeat split; apply HI).
    destruct (otr_body P E f s) as [y| |] eqn:Eb; cbn [obind]; try discriminate.
    apply ohist_body in Eb as (A & B & C & D); auto.
    destruct y as [f' s'|s'|s'|s']; cbn [xstate] in *; try (intros [= <-]; auto 10).
    intros Hr. apply IH in Hr; auto. rewrite B, C in Hr. exact Hr.
  Qed.

  Definition olate_clock : Prop := exists w w' t, o_clock E w = (w', t) /\ nltb (omax_time P) t = true.

  Lemma ohist_sqp fuel k it s j : ohinv s -> it = Z.of_nat (S (oconv_since (o_trace s))) ->
    osqp_loop P E fuel k it s = Ok j ->
    ohinv (jstate j) /\ openalties (o_trace (jstate j)) = openalties (o_trace s) /\
    match j with
    | JCleanup OPT_TIME_LIMIT s' => olate_clock /\ ofeasible P s' = false
    | JCleanup OPT_SCO_ITERATION_LIMIT s' =>
        (omax_iter P <= Z.of_nat (oconv_since (o_trace s')))%Z /\ ofeasible P s' = false
    | JCleanup OPT_FAILED s' => (omax_qp_solver_failures P < Z.of_nat (ofails_since (o_trace s')))%Z
    | JCleanup OPT_PENALTY_ITERATION_LIMIT _ => False
    | _ => True
    end.
  Proof.
    revert it s; induction k as [|k IH]; intros it s HI Hit; cbn [osqp_loop]; try discriminate.
    destruct (o_clock E (o_world s)) as [w el] eqn:Ek.
    destruct (nltb (omax_time P) el) eqn:El.
    { intros [= <-]. cbn [jstate]. split; [exact HI|]. split; [reflexivity|].
      destruct (ofeasible P (with_oworld s w)) eqn:Ef; [exact I|]. split; auto. exists (o_world s), w, el. auto. }
    destruct (oprepare E (with_oworld s w)) as [s1| |] eqn:Ep; cbn [obind]; try discriminate.
    assert (H1 : ohinv s1 /\ ofails_since (o_trace s1) = 0%nat /\ oconv_since (o_trace s1) = S (oconv_since (o_trace s)) /\
                 openalties (o_trace s1) = openalties (o_trace s)).
    { apply oprepare_spec in Ep as (Hp & _ & Hb & Hm & _). unfold ohinv. rewrite Hb, Hm. cbn [o_box o_merit with_oworld].
      destruct HI as (A & B & C).
      destruct Hp as [(_ & _ & _ & _ & _ & _ & ->)|(_ & _ & _ & -> & _)]; cbn; auto. }
    destruct H1 as (H1 & F1 & C1 & P1).
    destruct (otr_loop P E fuel 0 s1) as [x| |] eqn:Et; cbn [obind]; try discriminate.
    apply ohist_tr in Et as (A & B & C & D); [|exact H1|rewrite F1; reflexivity].
    destruct x as [f2 s2|s2|s2|s2]; cbn [xstate] in *; try discriminate.
    - destruct (nltb (o_box s2) (omin_trust_box_size P)).
      { intros [= <-]. cbn. split; auto. split; [congruence|auto]. }
      destruct (it >=? omax_iter P)%Z eqn:Eit.
      { intros [= <-]. cbn [jstate]. split; auto. split; [congruence|]. destruct (ofeasible P s2) eqn:Ef; [exact I|].
        split; auto. rewrite B, C1. rewrite Z.geb_leb, Z.leb_le in Eit. lia. }
      intros Hr. apply IH in Hr; auto.
      + rewrite C, P1 in Hr. exact Hr.
      + rewrite B, C1. lia.
    - intros [= <-]. cbn. split; auto. split; [congruence|auto].
    - intros [= <-]. cbn. split; auto. split; [congruence|auto].
  Qed.

  Lemma ohist_adjust (s s' : osst) : ohinv s -> oadjust P s = Ok s' ->
    ohinv s' /\ openalties (o_trace s') = S (openalties (o_trace s)) /\ oconv_since (o_trace s') = 0%nat /\
    ofeasible P s' = ofeasible P s.
  Proof.
    intros (A & B & C) Ha. pose proof (oadjust_spec P _ _ Ha) as (_ & _ & Hv & _ & _ & Ht & H1 & H2).
    assert (Hb : o_box s' = nfmax (o_box s) (nmul (ndiv (omin_trust_box_size P) (otrust_shrink_ratio P)) (ndec 15 (-1)))).
    { revert Ha. unfold oadjust. destruct (_ && _); [discriminate|]. intros [= <-]. reflexivity. }
    unfold ohinv, ofeasible. rewrite Hv, Hb, Ht. cbn [obox_hist ocoeff_hist ohist_ok openalties oconv_since].
    rewrite A. repeat split; auto.
    - destruct (oinflate_individually P) eqn:Ei.
      + destruct (H1 eq_refl) as [Hl ->]. rewrite (proj1 (oinflate_rule _ _ Hl Ei)). reflexivity.
      + rewrite (H2 eq_refl), map_length. reflexivity.
    - destruct (oinflate_individually P) eqn:Ei.
      + destruct (H1 eq_refl) as [Hl ->]. pose proof (proj2 (oinflate_rule _ _ Hl Ei)) as Hr. rewrite Ei in Hr. exact Hr.
      + rewrite (H2 eq_refl). intros i Hi. cbn [negb orb].
        rewrite (nth_indep _ nzero (nmul nzero (omerit_coeff_increase_ratio P))) by (rewrite map_length; exact Hi).
        rewrite (map_nth (fun c => nmul c (omerit_coeff_increase_ratio P))). reflexivity.
  Qed.

  Lemma ohist_merit fuel k i s st s' : ohinv s -> i = Z.of_nat (openalties (o_trace s)) ->
    oconv_since (o_trace s) = 0%nat -> (i = 0%Z \/ ofeasible P s = false) ->
    omerit_loop P E fuel k i s = Ok (st, s') ->
    ohinv s' /\
    match st with
    | OPT_TIME_LIMIT => olate_clock /\ ofeasible P s' = false
    | OPT_SCO_ITERATION_LIMIT => (omax_iter P <= Z.of_nat (oconv_since (o_trace s')))%Z /\ ofeasible P s' = false
    | OPT_FAILED => (omax_qp_solver_failures P < Z.of_nat (ofails_since (o_trace s')))%Z
    | OPT_PENALTY_ITERATION_LIMIT =>
        nltb (nofZ (Z.of_nat (openalties (o_trace s')))) (omax_merit_coeff_increases P) = false /\
        (openalties (o_trace s') = 0%nat \/ ofeasible P s' = false)
    | OPT_CONVERGED => True
    end.
  Proof.
    revert i s; induction k as [|k IH]; intros i s HI Hi Hc Hv; cbn [omerit_loop];
      destruct (nltb (nofZ i) (omax_merit_coeff_increases P)) eqn:En; try discriminate;
      try (intros [= <- <-]; split; [exact HI|]; rewrite <- Hi; split; [exact En|]; destruct Hv; [left; lia|auto]).
    destruct (osqp_loop P E fuel fuel 1 s) as [j| |] eqn:Ej; cbn [obind]; try discriminate.
    apply ohist_sqp in Ej as (A & B & C); [|exact HI|rewrite Hc; reflexivity].
    destruct j as [s1|st1 s1]; cbn [jstate] in *.
    - destruct (ofeasible P s1) eqn:Ef; [intros [= <- <-]; auto|].
      destruct (oadjust P s1) as [s2| |] eqn:Ea; cbn [obind]; try discriminate.
      apply ohist_adjust in Ea as (A2 & B2 & C2 & D2); [|exact A].
      apply IH; auto.
      + rewrite B2, B. lia.
      + right. congruence.
    - intros [= <- <-]. split; [exact A|]. destruct st1; auto. contradiction.
  Qed.

  Lemma ohist_ok_qp tr newer ok older : ohist_ok tr -> tr = newer ++ OQP ok :: older ->
    nleb (omin_trust_box_size P) (bh older) = true.
  Proof.
    intros H ->. induction newer as [|e newer IH]; cbn [app] in H; [apply H|].
    apply IH. destruct e; cbn in H; apply H.
  Qed.
  Lemma ohist_ok_pen tr newer v b a older : ohist_ok tr -> tr = newer ++ OPenalty v b a :: older ->
    b = ch older /\ ocoeff_rule P v b a.
  Proof.
    intros H ->. induction newer as [|e newer IH]; cbn [app] in H; [split; apply H|].
    apply IH. destruct e; cbn in H; apply H.
  Qed.
  Lemma ofeasible_false s : ofeasible P (s : osst) = false ->
    exists m, vmaxc (o_cnt_viols s) = Some m /\ nltb m (ocnt_tolerance P) = false.
  Proof. unfold ofeasible. destruct (vmaxc _); [eauto|discriminate]. Qed.
End Hist.

Lemma optimize_hist {T} {NT : Num T} {W} (P : oparams T) (E : oenv T W) fuel x s0 st s :
  o_trace s0 = [] -> optimize P E fuel (oinitialize x s0) = Ok (Some (st, s)) ->
  ohinv P E (o_box s0) s /\
    match st with
    | OPT_TIME_LIMIT => olate_clock P E /\ ofeasible P s = false
    | OPT_SCO_ITERATION_LIMIT => (omax_iter P <= Z.of_nat (oconv_since (o_trace s)))%Z /\ ofeasible P s = false
    | OPT_FAILED => (omax_qp_solver_failures P < Z.of_nat (ofails_since (o_trace s)))%Z
    | OPT_PENALTY_ITERATION_LIMIT =>
        nltb (nofZ (Z.of_nat (openalties (o_trace s)))) (omax_merit_coeff_increases P) = false /\
        (openalties (o_trace s) = 0%nat \/ ofeasible P s = false)
    | OPT_CONVERGED => True
    end.
Proof.
  intros Ht Ho. apply optimize_inv_eq in Ho as (s1 & s2 & _ & -> & Hm & ->).
  apply (ohist_merit P E (o_box s0)) in Hm.
  - exact Hm.
  - unfold ohinv. cbn. rewrite Ht. cbn. repeat split; reflexivity.
  - cbn. rewrite Ht. reflexivity.
  - cbn. rewrite Ht. reflexivity.
  - left; reflexivity.
Qed.
