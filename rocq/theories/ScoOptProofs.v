(** Proofs about the sco optimizer model. *)
From Coq Require Import List ZArith Bool Lia Reals Lra.
From Verif Require Import Num NumFacts Common ScoOptModel ScoOptSpec.
Import ListNotations.

Section Generic.
  Context {T : Type} {NT : Num T} {W : Type}.
  Variable P : oparams T.
  Variable E : oenv T W.
  Notation osst := (osst T W).

  Definition xstate (x : oexit) : osst :=
    match x with XRetry _ s | XBreak s | XPenalty s | XFailed s => s end.
  Definition jstate (j : ojump) : osst := match j with JPenalty s | JCleanup _ s => s end.

  (** ** Invariant rule *)
  Section Inv.
    Variable I : osst -> Prop.
    Hypothesis I_world : forall s w, I s -> I (with_oworld s w).
    Hypothesis I_prepare : forall s s', I s -> oprepare E s = Ok s' -> I s'.
    Hypothesis I_body : forall f s x, I s -> otr_body P E f s = Ok x -> I (xstate x).
    Hypothesis I_adjust : forall s s', I s -> ofeasible P s = false -> oadjust P s = Ok s' -> I s'.

    Lemma otr_inv fuel f s x : I s -> otr_loop P E fuel f s = Ok x -> I (xstate x).
    Proof.
      revert f s; induction fuel as [|fuel IH]; intros f s HI; cbn [otr_loop];
        destruct (nleb (omin_trust_box_size P) (o_box s)); try discriminate; try (intros [= <-]; exact HI).
      destruct (otr_body P E f s) as [y| |] eqn:Eb; cbn [obind]; try discriminate.
      apply I_body in Eb; auto.
      destruct y; try (intros [= <-]; exact Eb). apply IH. exact Eb.
    Qed.

    Lemma osqp_inv fuel k it s j : I s -> osqp_loop P E fuel k it s = Ok j -> I (jstate j).
    Proof.
      revert it s; induction k as [|k IH]; intros it s HI; cbn [osqp_loop]; try discriminate.
      destruct (o_clock E (o_world s)) as [w el].
      destruct (nltb (omax_time P) el); [intros [= <-]; cbn; auto|].
      destruct (oprepare E (with_oworld s w)) as [s1| |] eqn:Ep; cbn [obind]; try discriminate.
      apply I_prepare in Ep; auto.
      destruct (otr_loop P E fuel 0 s1) as [x| |] eqn:Et; cbn [obind]; try discriminate.
      apply otr_inv in Et; auto.
      destruct x as [f2 s2|s2|s2|s2]; cbn in Et; try discriminate; try (intros [= <-]; exact Et).
      destruct (nltb (o_box s2) (omin_trust_box_size P)); [intros [= <-]; exact Et|].
      destruct (it >=? omax_iter P)%Z; [intros [= <-]; exact Et|].
      apply IH; auto.
    Qed.

    Lemma omerit_inv fuel k i s st s' : I s -> omerit_loop P E fuel k i s = Ok (st, s') -> I s'.
    Proof.
      revert i s; induction k as [|k IH]; intros i s HI; cbn [omerit_loop];
        destruct (nltb (nofZ i) (omax_merit_coeff_increases P)); try discriminate;
        try (intros [= _ <-]; exact HI).
      destruct (osqp_loop P E fuel fuel 1 s) as [j| |] eqn:Ej; cbn [obind]; try discriminate.
      apply osqp_inv in Ej; auto.
      destruct j as [s1|st1 s1]; cbn in Ej; [|intros [= _ <-]; exact Ej].
      destruct (ofeasible P s1) eqn:Ef; [intros [= _ <-]; exact Ej|].
      destruct (oadjust P s1) as [s2| |] eqn:Ea; cbn [obind]; try discriminate.
      apply IH. eapply I_adjust; eauto.
    Qed.
  End Inv.

  (** ** Coherence (C10) *)
  Definition ocoh (s : osst) : Prop :=
    (o_cost_vals s = [] /\ o_cnt_viols s = [] /\ o_nfe s = 0%Z /\ o_trace s = []) \/
    (o_cost_vals s = o_costs E (o_x s) /\ o_cnt_viols s = o_viols E (o_x s) /\ (1 <= o_nfe s)%Z).

  Lemma oprepare_spec s s' : oprepare E s = Ok s' ->
    (o_cost_vals s = [] /\ o_cnt_viols s = [] /\ o_nfe s = 0%Z /\
     o_cost_vals s' = o_costs E (o_x s) /\ o_cnt_viols s' = o_viols E (o_x s) /\ o_nfe s' = 1%Z /\
     o_trace s' = OConvexify :: OEval :: o_trace s \/
     o_cost_vals s' = o_cost_vals s /\ o_cnt_viols s' = o_cnt_viols s /\ o_nfe s' = o_nfe s /\
     o_trace s' = OConvexify :: o_trace s /\ ~ (o_cost_vals s = [] /\ o_cnt_viols s = [])) /\
    o_x s' = o_x s /\ o_box s' = o_box s /\ o_merit s' = o_merit s /\ o_nqp s' = o_nqp s.
  Proof.
    unfold oprepare. cbn.
    destruct (o_cost_vals s) as [|c cs] eqn:Ec; [destruct (o_cnt_viols s) as [|v vs] eqn:Ev|].
    - destruct (Z.eqb_spec (o_nfe s) 0) as [E0|E0]; cbn; try discriminate.
      intros [= <-]; cbn. repeat split; auto. left; repeat split; auto.
    - cbn. intros [= <-]; cbn. repeat split; auto. right; repeat split; auto. intros [_ Hx]; discriminate.
    - cbn. intros [= <-]; cbn. repeat split; auto. right; repeat split; auto. intros [Hx _]; discriminate.
  Qed.

  Lemma ocoh_prepare s s' : ocoh s -> oprepare E s = Ok s' ->
    o_cost_vals s' = o_costs E (o_x s') /\ o_cnt_viols s' = o_viols E (o_x s') /\ (1 <= o_nfe s')%Z.
  Proof.
    intros Hc Hp. apply oprepare_spec in Hp as (Hp & Hx & _). rewrite Hx.
    destruct Hp as [(H1 & H2 & H3 & H4 & H5 & H6 & _)|(H1 & H2 & H3 & _ & Hne)].
    - rewrite H4, H5, H6. repeat split; auto. lia.
    - rewrite H1, H2, H3. destruct Hc as [(A & B & C & _)|(A & B & C)]; [exfalso; auto|auto].
  Qed.

  (** what one trust-region iteration does *)
  Lemma otr_body_spec f s x : otr_body P E f s = Ok x ->
    o_merit (xstate x) = o_merit s /\ o_nqp (xstate x) = (o_nqp s + 1)%Z /\
    match x with
    | XBreak s' => exists vals old new,
        o_x s' = firstn (length (o_x s)) vals /\
        o_cost_vals s' = o_costs E (o_x s') /\ o_cnt_viols s' = o_viols E (o_x s') /\ o_nfe s' = (o_nfe s + 1)%Z /\
        o_trace s' = OAccept old new :: OQP true :: o_trace s /\
        old = omerit_of (o_cost_vals s) (o_cnt_viols s) (o_merit s) /\
        new = omerit_of (o_cost_vals s') (o_cnt_viols s') (o_merit s) /\
        nltb (nsub old new) nzero = false /\
        o_box s' = nmul (o_box s) (otrust_expand_ratio P) /\
        (length (o_x s) <= length vals)%nat
    | XRetry f' s' =>
        o_x s' = o_x s /\ o_cost_vals s' = o_cost_vals s /\ o_cnt_viols s' = o_cnt_viols s /\
        (o_nfe s <= o_nfe s')%Z /\
        (f' = f /\ o_trace s' = OReject :: OQP true :: o_trace s /\ o_box s' = nmul (o_box s) (otrust_shrink_ratio P) \/
         f' = (f + 1)%Z /\ o_trace s' = OQP false :: o_trace s /\
           (o_box s' = nmul (o_box s) (otrust_shrink_ratio P) /\ (f < omax_qp_solver_failures P - 1)%Z \/
            o_box s' = omin_trust_box_size P /\ f = (omax_qp_solver_failures P - 1)%Z))
    | XPenalty s' =>
        o_x s' = o_x s /\ o_cost_vals s' = o_cost_vals s /\ o_cnt_viols s' = o_cnt_viols s /\
        o_nfe s' = (o_nfe s + 1)%Z /\ o_trace s' = OQP true :: o_trace s /\ o_box s' = o_box s
    | XFailed s' =>
        o_x s' = o_x s /\ o_cost_vals s' = o_cost_vals s /\ o_cnt_viols s' = o_cnt_viols s /\
        o_nfe s' = o_nfe s /\ o_trace s' = OQP false :: o_trace s /\ o_box s' = o_box s /\
        (omax_qp_solver_failures P <= f)%Z
    end.
  Proof.
    unfold otr_body. cbn [o_world with_oworld].
    destruct (o_qp E (o_setbox E (o_world s) (o_x s) (o_box s))) as [w [vals|]].
    - cbn [o_x o_cnt_viols o_merit o_cost_vals with_counts with_oworld oemit o_world o_nfe o_nqp o_box].
      destruct (length vals <? length (o_x s))%nat eqn:El; cbn [orb]; [discriminate|].
      destruct (negb _); cbn [orb]; [discriminate|].
      destruct (negb _); cbn [orb]; [discriminate|].
      destruct (negb _); cbn [orb]; [discriminate|].
      apply Nat.ltb_ge in El.
      destruct (nltb _ (omin_approx_improve P)); [intros [= <-]; cbn; repeat split; auto|].
      destruct (nltb _ (omin_approx_improve_frac P)); [intros [= <-]; cbn; repeat split; auto|].
      match goal with |- context [nltb ?a nzero || ?b] => destruct (nltb a nzero) eqn:Ee; [|destruct b] end;
        cbn [orb]; intros [= <-]; cbn.
      + repeat split; auto; try lia.
      + repeat split; auto; try lia.
      + repeat split; auto. exists vals, (omerit_of (o_cost_vals s) (o_cnt_viols s) (o_merit s)). eexists.
        repeat split; auto.
    - destruct (Z.ltb_spec f (omax_qp_solver_failures P - 1)) as [H1|H1].
      + intros [= <-]; cbn. repeat split; auto; try lia. right. repeat split; auto.
      + destruct (Z.eqb_spec f (omax_qp_solver_failures P - 1)) as [H2|H2].
        * intros [= <-]; cbn. repeat split; auto; try lia. right. repeat split; auto.
        * intros [= <-]; cbn. repeat split; auto; lia.
  Qed.

  Definition ocoh' (s : osst) : Prop :=
    o_cost_vals s = o_costs E (o_x s) /\ o_cnt_viols s = o_viols E (o_x s) /\ (1 <= o_nfe s)%Z.

  Lemma ocoh'_body f s x : ocoh' s -> otr_body P E f s = Ok x -> ocoh' (xstate x).
  Proof.
    intros (A & B & C) Hb. apply otr_body_spec in Hb as (_ & _ & Hb). unfold ocoh'.
    destruct x as [f' s'|s'|s'|s']; cbn [xstate].
    - destruct Hb as (-> & -> & -> & Hn & _). repeat split; auto; lia.
    - destruct Hb as (vals & old & new & _ & -> & -> & -> & _). repeat split; auto; lia.
    - destruct Hb as (-> & -> & -> & -> & _). repeat split; auto; lia.
    - destruct Hb as (-> & -> & -> & -> & _). repeat split; auto.
  Qed.

  (** A rule with a stronger invariant [J] once the first evaluation has happened. *)
  Lemma osqp_coh fuel k it s j : ocoh s -> osqp_loop P E fuel k it s = Ok j ->
    match j with JPenalty s' => ocoh' s' | JCleanup _ s' => ocoh s' end.
  Proof.
    revert it s; induction k as [|k IH]; intros it s HI; cbn [osqp_loop]; try discriminate.
    destruct (o_clock E (o_world s)) as [w el].
    destruct (nltb (omax_time P) el); [intros [= <-]; exact HI|].
    destruct (oprepare E (with_oworld s w)) as [s1| |] eqn:Ep; cbn [obind]; try discriminate.
    apply ocoh_prepare in Ep; [|exact HI].
    destruct (otr_loop P E fuel 0 s1) as [x| |] eqn:Et; cbn [obind]; try discriminate.
    apply (otr_inv ocoh') in Et; [|intros; eapply ocoh'_body; eauto|exact Ep].
    destruct x as [f2 s2|s2|s2|s2]; cbn in Et; try discriminate.
    - destruct (nltb (o_box s2) (omin_trust_box_size P)); [intros [= <-]; exact Et|].
      destruct (it >=? omax_iter P)%Z; [intros [= <-]; right; exact Et|].
      apply IH; right; exact Et.
    - intros [= <-]; exact Et.
    - intros [= <-]; right; exact Et.
  Qed.

  Lemma oadjust_spec (s s' : osst) : oadjust P s = Ok s' ->
    o_x s' = o_x s /\ o_cost_vals s' = o_cost_vals s /\ o_cnt_viols s' = o_cnt_viols s /\
    o_nfe s' = o_nfe s /\ o_nqp s' = o_nqp s /\
    o_trace s' = OPenalty (o_cnt_viols s) (o_merit s) (o_merit s') :: o_trace s /\
    (oinflate_individually P = true -> length (o_cnt_viols s) = length (o_merit s) /\
       o_merit s' = oinflate P (o_cnt_viols s) (o_merit s)) /\
    (oinflate_individually P = false ->
       o_merit s' = map (fun c => nmul c (omerit_coeff_increase_ratio P)) (o_merit s)).
  Proof.
    unfold oadjust. destruct (oinflate_individually P); cbn [andb].
    - destruct (Nat.eqb_spec (length (o_cnt_viols s)) (length (o_merit s))) as [Hl|Hl]; cbn; [|discriminate].
      intros [= <-]. cbn. repeat split; auto. discriminate.
    - intros [= <-]. cbn. repeat split; auto; discriminate.
  Qed.

  Lemma omerit_coh fuel k i s st s' : ocoh s -> omerit_loop P E fuel k i s = Ok (st, s') -> ocoh s'.
  Proof.
    revert i s; induction k as [|k IH]; intros i s HI; cbn [omerit_loop];
      destruct (nltb (nofZ i) (omax_merit_coeff_increases P)); try discriminate;
      try (intros [= _ <-]; exact HI).
    destruct (osqp_loop P E fuel fuel 1 s) as [j| |] eqn:Ej; cbn [obind]; try discriminate.
    apply osqp_coh in Ej; auto.
    destruct j as [s1|st1 s1]; [|intros [= _ <-]; exact Ej].
    destruct (ofeasible P s1) eqn:Ef; [intros [= _ <-]; right; exact Ej|].
    destruct (oadjust P s1) as [s2| |] eqn:Ea; cbn [obind]; try discriminate.
    apply IH. apply oadjust_spec in Ea as (A & B & C & D & _). right. unfold ocoh' in Ej.
    rewrite A, B, C, D. exact Ej.
  Qed.

  Lemma optimize_coh fuel s st s' : ocoh (with_point s (o_project E (o_x s)) (o_cost_vals s) (o_cnt_viols s)) ->
    optimize P E fuel s = Ok (Some (st, s')) -> ocoh s'.
  Proof.
    intros Hc. unfold optimize. destruct (o_x s) as [|x0 xs] eqn:Ex; [discriminate|].
    destruct (omerit_loop P E fuel fuel 0 _) as [[st1 s1]| |] eqn:Em; cbn [obind]; try discriminate.
    intros [= _ <-]. apply omerit_coh in Em; [exact Em|].
    cbn [o_x with_omerit]. rewrite Ex. exact Hc.
  Qed.

  (** ** Converged means feasible (C09) *)
  Lemma osqp_status fuel k it s j : osqp_loop P E fuel k it s = Ok j ->
    match j with JCleanup OPT_CONVERGED s' => ofeasible P s' = true | _ => True end.
  Proof.
    revert it s; induction k as [|k IH]; intros it s; cbn [osqp_loop]; try discriminate.
    destruct (o_clock E (o_world s)) as [w el].
    destruct (nltb (omax_time P) el).
    { intros [= <-]. destruct (ofeasible P (with_oworld s w)) eqn:Ef; auto. }
    destruct (oprepare E (with_oworld s w)) as [s1| |]; cbn [obind]; try discriminate.
    destruct (otr_loop P E fuel 0 s1) as [x| |]; cbn [obind]; try discriminate.
    destruct x as [f2 s2|s2|s2|s2]; try discriminate; try (intros [= <-]; exact I).
    destruct (nltb (o_box s2) (omin_trust_box_size P)); [intros [= <-]; exact I|].
    destruct (it >=? omax_iter P)%Z; [|apply IH].
    intros [= <-]. destruct (ofeasible P s2) eqn:Ef; auto.
  Qed.

  Lemma omerit_status fuel k i s st s' : omerit_loop P E fuel k i s = Ok (st, s') ->
    st = OPT_CONVERGED -> ofeasible P s' = true.
  Proof.
    revert i s; induction k as [|k IH]; intros i s; cbn [omerit_loop];
      destruct (nltb (nofZ i) (omax_merit_coeff_increases P)); try discriminate;
      try (intros [= <- <-]; discriminate).
    destruct (osqp_loop P E fuel fuel 1 s) as [j| |] eqn:Ej; cbn [obind]; try discriminate.
    apply osqp_status in Ej.
    destruct j as [s1|st1 s1].
    - destruct (ofeasible P s1) eqn:Ef; [intros [= <- <-]; auto|].
      destruct (oadjust P s1) as [s2| |]; cbn [obind]; try discriminate. apply IH.
    - intros [= <- <-] ->. exact Ej.
  Qed.

  Lemma optimize_converged `{OrdLaws T (H := NT)} fuel x w0 s' :
    o_trace w0 = [] ->
    optimize P E fuel (oinitialize x w0) = Ok (Some (OPT_CONVERGED, s')) ->
    (o_nfe s' = 0%Z /\ o_trace s' = []) \/
    (o_cnt_viols s' = o_viols E (o_x s') /\
     Forall (fun v => nltb v (ocnt_tolerance P) = true) (o_viols E (o_x s'))).
  Proof.
    intros Ht Ho.
    assert (Hc : ocoh s').
    { eapply optimize_coh; [|exact Ho]. left. cbn. auto. }
    assert (Hf : ofeasible P s' = true).
    { unfold optimize in Ho. destruct (o_x (oinitialize x w0)); [discriminate|].
      destruct (omerit_loop P E fuel fuel 0 _) as [[st1 s1]| |] eqn:Em; cbn [obind] in Ho; try discriminate.
      injection Ho as -> <-. apply omerit_status in Em; auto. }
    destruct Hc as [(A & B & C & D)|(A & B & C)]; [left; auto|right].
    split; auto. unfold ofeasible in Hf. rewrite B in Hf.
    destruct (vmaxc (o_viols E (o_x s'))) as [m|] eqn:Em.
    - eapply vmaxc_bound; eauto.
    - destruct (o_viols E (o_x s')); [constructor|discriminate].
  Qed.

  Lemma optimize_fresh fuel x w0 st s' :
    o_trace w0 = [] ->
    optimize P E fuel (oinitialize x w0) = Ok (Some (st, s')) ->
    (o_cost_vals s' = [] /\ o_cnt_viols s' = [] /\ o_nfe s' = 0%Z /\ o_trace s' = []) \/
    (o_cost_vals s' = o_costs E (o_x s') /\ o_cnt_viols s' = o_viols E (o_x s') /\
     ototal_cost s' = vsum (o_costs E (o_x s'))).
  Proof.
    intros Ht Ho. assert (Hc : ocoh s').
    { eapply optimize_coh; [|exact Ho]. left. cbn. auto. }
    destruct Hc as [H0|(A & B & C)]; [left; exact H0|right].
    repeat split; auto. unfold ototal_cost. rewrite A. reflexivity.
  Qed.

  (** ** Counting (C12) *)
  Definition ext (s s' : osst) (c p f : nat) : Prop :=
    exists ev, o_trace s' = ev ++ o_trace s /\ (oconvexifications ev <= c)%nat /\ (openalties ev <= p)%nat /\
      (ofailures ev <= f)%nat.

  Lemma oconv_app (a b : list (oevent T)) : oconvexifications (a ++ b) = (oconvexifications a + oconvexifications b)%nat.
  Proof. induction a as [|[] a IH]; cbn; auto. Qed.
  Lemma open_app (a b : list (oevent T)) : openalties (a ++ b) = (openalties a + openalties b)%nat.
  Proof. induction a as [|[] a IH]; cbn; auto. Qed.
  Lemma ofail_app (a b : list (oevent T)) : ofailures (a ++ b) = (ofailures a + ofailures b)%nat.
  Proof. induction a as [|[| |[]| | |] a IH]; cbn; auto. Qed.

  Lemma otr_failures fuel f s x : otr_loop P E fuel f s = Ok x ->
    exists ev, o_trace (xstate x) = ev ++ o_trace s /\ oconvexifications ev = 0%nat /\ openalties ev = 0%nat /\
      (Z.of_nat (ofailures ev) <= Z.max 0 (omax_qp_solver_failures P - f) + 1)%Z.
  Proof.
    revert f s; induction fuel as [|fuel IH]; intros f s; cbn [otr_loop];
      destruct (nleb (omin_trust_box_size P) (o_box s)); try discriminate;
      try (intros [= <-]; exists []; cbn; repeat split; auto; lia).
    destruct (otr_body P E f s) as [y| |] eqn:Eb; cbn [obind]; try discriminate.
    apply otr_body_spec in Eb as (_ & _ & Eb).
    destruct y as [f' s'|s'|s'|s'].
    - intros Hr. apply IH in Hr as (ev & Htr & Hc & Hp & Hf).
      destruct Eb as (_ & _ & _ & _ & [(-> & Ht & _)|(-> & Ht & Hcase)]).
      + exists (ev ++ [OReject; OQP true]). rewrite Htr, Ht, <- app_assoc.
        rewrite oconv_app, open_app, ofail_app. cbn. repeat split; try lia.
      + exists (ev ++ [OQP false]). rewrite Htr, Ht, <- app_assoc.
        rewrite oconv_app, open_app, ofail_app. cbn. repeat split; try lia.
    - intros [= <-]. destruct Eb as (vals & old & new & _ & _ & _ & _ & Ht & _).
      exists [OAccept old new; OQP true]. cbn. rewrite Ht. repeat split; auto; lia.
    - intros [= <-]. destruct Eb as (_ & _ & _ & _ & Ht & _).
      exists [OQP true]. cbn. rewrite Ht. repeat split; auto; lia.
    - intros [= <-]. destruct Eb as (_ & _ & _ & _ & Ht & _).
      exists [OQP false]. cbn. rewrite Ht. repeat split; auto; lia.
  Qed.

  Lemma osqp_count fuel k it s j : osqp_loop P E fuel k it s = Ok j ->
    exists ev, o_trace (jstate j) = ev ++ o_trace s /\ openalties ev = 0%nat /\
      (Z.of_nat (oconvexifications ev) <= Z.max 1 (omax_iter P - it + 1))%Z.
  Proof.
    revert it s; induction k as [|k IH]; intros it s; cbn [osqp_loop]; try discriminate.
    destruct (o_clock E (o_world s)) as [w el].
    destruct (nltb (omax_time P) el).
    { intros [= <-]. exists []. cbn. repeat split; auto; lia. }
    destruct (oprepare E (with_oworld s w)) as [s1| |] eqn:Ep; cbn [obind]; try discriminate.
    destruct (otr_loop P E fuel 0 s1) as [x| |] eqn:Et; cbn [obind]; try discriminate.
    assert (Hp : exists ev, o_trace s1 = ev ++ o_trace s /\ openalties ev = 0%nat /\ oconvexifications ev = 1%nat).
    { apply oprepare_spec in Ep as ([(_ & _ & _ & _ & _ & _ & Ht)|(_ & _ & _ & Ht & _)] & _).
      - exists [OConvexify; OEval]. cbn. auto.
      - exists [OConvexify]. cbn. auto. }
    destruct Hp as (ev1 & Ht1 & Hp1 & Hc1).
    apply otr_failures in Et as (ev2 & Ht2 & Hc2 & Hp2 & _).
    assert (Hfin : exists ev, o_trace (xstate x) = ev ++ o_trace s /\ openalties ev = 0%nat /\
       (oconvexifications ev = 1)%nat).
    { exists (ev2 ++ ev1). rewrite Ht2, Ht1, app_assoc, oconv_app, open_app. repeat split; lia. }
    destruct Hfin as (ev & Ht & Hp & Hc).
    destruct x as [f2 s2|s2|s2|s2]; cbn in Ht; try discriminate.
    - destruct (nltb (o_box s2) (omin_trust_box_size P)); [intros [= <-]; exists ev; cbn; repeat split; auto; lia|].
      destruct (it >=? omax_iter P)%Z eqn:Eit; [intros [= <-]; exists ev; cbn; repeat split; auto; lia|].
      rewrite Z.geb_leb in Eit. apply Z.leb_gt in Eit.
      intros Hr. apply IH in Hr as (ev3 & Ht3 & Hp3 & Hc3).
      exists (ev3 ++ ev). rewrite Ht3, Ht, app_assoc, oconv_app, open_app. repeat split; lia.
    - intros [= <-]; exists ev; cbn; repeat split; auto; lia.
    - intros [= <-]; exists ev; cbn; repeat split; auto; lia.
  Qed.

  Lemma omerit_count fuel k i s st s' : omerit_loop P E fuel k i s = Ok (st, s') ->
    exists ev, o_trace s' = ev ++ o_trace s /\
      (Z.of_nat (oconvexifications ev) <= Z.max 1 (omax_iter P) * (Z.of_nat (openalties ev) + 1))%Z.
  Proof.
    revert i s; induction k as [|k IH]; intros i s; cbn [omerit_loop];
      destruct (nltb (nofZ i) (omax_merit_coeff_increases P)); try discriminate;
      try (intros [= _ <-]; exists []; cbn; split; auto; lia).
    destruct (osqp_loop P E fuel fuel 1 s) as [j| |] eqn:Ej; cbn [obind]; try discriminate.
    apply osqp_count in Ej as (ev & Ht & Hp & Hc).
    destruct j as [s1|st1 s1]; cbn in Ht.
    - destruct (ofeasible P s1) eqn:Ef; [intros [= _ <-]; exists ev; split; auto; nia|].
      destruct (oadjust P s1) as [s2| |] eqn:Ea; cbn [obind]; try discriminate.
      apply oadjust_spec in Ea as (_ & _ & _ & _ & _ & Ht2 & _).
      intros Hr. apply IH in Hr as (ev3 & Ht3 & Hc3).
      exists (ev3 ++ [OPenalty (o_cnt_viols s1) (o_merit s1) (o_merit s2)] ++ ev).
      rewrite Ht3, Ht2, Ht, !app_assoc, <- !app_assoc. cbn [app].
      split; [reflexivity|]. rewrite oconv_app, open_app. cbn. rewrite Hp. nia.
    - intros [= _ <-]. exists ev. split; auto. nia.
  Qed.

  Lemma optimize_inv_eq fuel s st s' : optimize P E fuel s = Ok (Some (st, s')) ->
    exists s0 s1, o_x s <> [] /\
      s0 = with_point (with_omerit s (repeat (oinitial_merit_error_coeff P) (o_ncnt E)))
             (o_project E (o_x s)) (o_cost_vals s) (o_cnt_viols s) /\
      omerit_loop P E fuel fuel 0 s0 = Ok (st, s1) /\ s' = with_oworld s1 (o_callback E (o_world s1)).
  Proof.
    unfold optimize. destruct (o_x s) as [|x0 xs] eqn:Ex; [discriminate|].
    destruct (omerit_loop P E fuel fuel 0 _) as [[st1 s1]| |] eqn:Em; cbn [obind]; try discriminate.
    intros [= <- <-]. eexists _, s1. split; [discriminate|]. split; [reflexivity|]. split; [|reflexivity].
    rewrite <- Em. cbn. rewrite Ex. reflexivity.
  Qed.

  Lemma optimize_convexifications fuel x w0 st s' : o_trace w0 = [] ->
    optimize P E fuel (oinitialize x w0) = Ok (Some (st, s')) ->
    (Z.of_nat (oconvexifications (o_trace s')) <=
       Z.max 1 (omax_iter P) * (Z.of_nat (openalties (o_trace s')) + 1))%Z.
  Proof.
    intros Ht Ho. apply optimize_inv_eq in Ho as (s0 & s1 & _ & -> & Hm & ->).
    apply omerit_count in Hm as (ev & Hev & Hc). cbn in Hev. rewrite Ht, app_nil_r in Hev.
    cbn. rewrite Hev. exact Hc.
  Qed.

  (** ** Monotonicity in fuel *)
  Lemma otr_mono a b f s : (a <= b)%nat -> otr_loop P E a f s <> NoFuel -> otr_loop P E b f s = otr_loop P E a f s.
  Proof.
    revert b f s; induction a as [|a IH]; intros b f s Hab Hn; cbn [otr_loop] in *.
    - destruct (nleb (omin_trust_box_size P) (o_box s)) eqn:El; [congruence|].
      destruct b; cbn [otr_loop]; rewrite El; reflexivity.
    - destruct b as [|b]; [lia|]. cbn [otr_loop].
      destruct (nleb (omin_trust_box_size P) (o_box s)); auto.
      destruct (otr_body P E f s) as [[f' s'|s'|s'|s']| |]; cbn [obind] in *; auto.
      apply IH; [lia|exact Hn].
  Qed.

  Lemma osqp_mono a b k l it s : (a <= b)%nat -> (k <= l)%nat -> osqp_loop P E a k it s <> NoFuel ->
    osqp_loop P E b l it s = osqp_loop P E a k it s.
  Proof.
    intros Hab. revert l it s; induction k as [|k IH]; intros l it s Hkl Hn; [cbn in Hn; congruence|].
    destruct l as [|l]; [lia|]. cbn [osqp_loop] in *.
    destruct (o_clock E (o_world s)) as [w el].
    destruct (nltb (omax_time P) el); auto.
    destruct (oprepare E (with_oworld s w)) as [s1| |]; cbn [obind] in *; auto.
    assert (Ht : otr_loop P E a 0 s1 <> NoFuel).
    { intros Hx. rewrite Hx in Hn. cbn in Hn. congruence. }
    rewrite (otr_mono a b 0 s1 Hab Ht).
    destruct (otr_loop P E a 0 s1) as [x| |]; cbn [obind] in *; auto.
    destruct x as [f2 s2|s2|s2|s2]; auto.
    destruct (nltb (o_box s2) (omin_trust_box_size P)); auto.
    destruct (it >=? omax_iter P)%Z; auto.
    apply IH; [lia|exact Hn].
  Qed.

  Lemma omerit_mono a b k l i s : (a <= b)%nat -> (k <= l)%nat -> omerit_loop P E a k i s <> NoFuel ->
    omerit_loop P E b l i s = omerit_loop P E a k i s.
  Proof.
    intros Hab. revert l i s; induction k as [|k IH]; intros l i s Hkl Hn.
    - cbn [omerit_loop] in *. destruct (nltb (nofZ i) (omax_merit_coeff_increases P)) eqn:Ei; [congruence|].
      destruct l; cbn [omerit_loop]; rewrite Ei; reflexivity.
    - destruct l as [|l]; [lia|]. cbn [omerit_loop] in *.
      destruct (nltb (nofZ i) (omax_merit_coeff_increases P)); auto.
      assert (Ht : osqp_loop P E a a 1 s <> NoFuel).
      { intros Hx. rewrite Hx in Hn. cbn in Hn. congruence. }
      rewrite (osqp_mono a b a b 1 s Hab Hab Ht).
      destruct (osqp_loop P E a a 1 s) as [j| |]; cbn [obind] in *; auto.
      destruct j as [s1|st1 s1]; auto.
      destruct (ofeasible P s1); auto.
      destruct (oadjust P s1) as [s2| |]; cbn [obind] in *; auto.
      apply IH; [lia|exact Hn].
  Qed.

  (** ** No assertion fails for a well-sized problem *)
  Section Sized.
    Variable n : nat.
    Hypothesis Hproj : forall x, length (o_project E x) = length x.
    Hypothesis Hviol : forall x, length (o_viols E x) = o_ncnt E.
    Hypothesis Hmviol : forall w v, length (o_mviols E w v) = o_ncnt E.
    Hypothesis Hqp : forall w v, snd (o_qp E w) = Some v -> (n <= length v)%nat.
    Hypothesis Hsome : forall x, o_costs E x <> [] \/ o_viols E x <> [].

    Definition osized (s : osst) : Prop := length (o_x s) = n /\ length (o_merit s) = o_ncnt E /\ ocoh s.
    Definition osized' (s : osst) : Prop := length (o_x s) = n /\ length (o_merit s) = o_ncnt E /\ ocoh' s.

    Lemma osized_body f s : osized' s -> otr_body P E f s <> Undef /\
      (forall x, otr_body P E f s = Ok x -> osized' (xstate x)).
    Proof.
      intros (Hx & Hm & Hc). split.
      - unfold otr_body. cbn [o_world with_oworld].
        pose proof (Hqp (o_setbox E (o_world s) (o_x s) (o_box s))) as Hq.
        destruct (o_qp E (o_setbox E (o_world s) (o_x s) (o_box s))) as [w [vals|]].
        + specialize (Hq vals eq_refl). destruct Hc as (_ & Hv & _).
          cbn [o_x o_cnt_viols o_merit o_cost_vals with_counts with_oworld oemit o_world o_nfe o_nqp o_box].
          rewrite Hv, Hviol, Hviol, Hmviol, Hm, Nat.eqb_refl.
          destruct (Nat.ltb_spec (length vals) (length (o_x s))); [lia|]. cbn [negb orb].
          destruct (nltb _ (omin_approx_improve P)); [discriminate|].
          destruct (nltb _ (omin_approx_improve_frac P)); [discriminate|].
          destruct (_ || _); discriminate.
        + destruct (_ <? _)%Z; [discriminate|]. destruct (_ =? _)%Z; discriminate.
      - intros x Hb. pose proof (ocoh'_body f s x Hc Hb) as Hc'.
        apply otr_body_spec in Hb as (Hm' & _ & Hb). split; [|split; [congruence|exact Hc']].
        destruct x as [f' s'|s'|s'|s']; cbn [xstate].
        + destruct Hb as (-> & _). exact Hx.
        + destruct Hb as (vals & old & new & -> & _ & _ & _ & _ & _ & _ & _ & _ & Hl).
          rewrite firstn_length, Nat.min_l; auto.
        + destruct Hb as (-> & _). exact Hx.
        + destruct Hb as (-> & _). exact Hx.
    Qed.

    Lemma osized_tr fuel f s : osized' s -> otr_loop P E fuel f s <> Undef /\
      (forall x, otr_loop P E fuel f s = Ok x -> osized' (xstate x) /\ (forall f' s', x <> XRetry f' s')).
    Proof.
      revert f s; induction fuel as [|fuel IH]; intros f s Hs; cbn [otr_loop];
        destruct (nleb (omin_trust_box_size P) (o_box s)).
      - split; discriminate.
      - split; [discriminate|]. intros x [= <-]. split; [exact Hs|discriminate].
      - destruct (osized_body f s Hs) as [Hu Hb].
        destruct (otr_body P E f s) as [y| |]; cbn [obind]; [|split; discriminate|congruence].
        specialize (Hb y eq_refl). destruct y as [f' s'|s'|s'|s'].
        + apply IH. exact Hb.
        + split; [discriminate|]. intros x [= <-]. split; [exact Hb|discriminate].
        + split; [discriminate|]. intros x [= <-]. split; [exact Hb|discriminate].
        + split; [discriminate|]. intros x [= <-]. split; [exact Hb|discriminate].
      - split; [discriminate|]. intros x [= <-]. split; [exact Hs|discriminate].
    Qed.

    Lemma osized_prepare s : osized s -> exists s', oprepare E s = Ok s' /\ osized' s'.
    Proof.
      intros (Hx & Hm & Hc).
      destruct (oprepare E s) as [s'| |] eqn:Ep.
      - exists s'. split; auto. pose proof (ocoh_prepare s s' Hc Ep) as Hc'.
        apply oprepare_spec in Ep as (_ & Ex & _ & Em & _). split; [congruence|]. split; [congruence|exact Hc'].
      - exfalso. revert Ep. unfold oprepare. cbn. destruct (o_cost_vals s); [destruct (o_cnt_viols s)|]; cbn; try discriminate.
        destruct (o_nfe s =? 0)%Z; discriminate.
      - exfalso. revert Ep. unfold oprepare. cbn.
        destruct (o_cost_vals s) eqn:Ec; [destruct (o_cnt_viols s) eqn:Ev|]; cbn; try discriminate.
        destruct (Z.eqb_spec (o_nfe s) 0) as [H0|H0]; cbn; [discriminate|].
        exfalso. destruct Hc as [(_ & _ & H1 & _)|(H1 & H2 & _)]; [congruence|].
        destruct (Hsome (o_x s)) as [H3|H3]; congruence.
    Qed.

    Lemma osized_sqp fuel k it s : osized s -> osqp_loop P E fuel k it s <> Undef /\
      (forall j, osqp_loop P E fuel k it s = Ok j ->
         match j with JPenalty s' => osized' s' | JCleanup _ s' => osized s' end).
    Proof.
      revert it s; induction k as [|k IH]; intros it s Hs; cbn [osqp_loop]; [split; discriminate|].
      destruct (o_clock E (o_world s)) as [w el].
      destruct (nltb (omax_time P) el).
      { split; [discriminate|]. intros j [= <-]. exact Hs. }
      destruct (osized_prepare (with_oworld s w)) as (s1 & Ep & Hs1); [exact Hs|].
      rewrite Ep. cbn [obind].
      destruct (osized_tr fuel 0 s1 Hs1) as [Hu Ht].
      destruct (otr_loop P E fuel 0 s1) as [x| |]; cbn [obind]; [|split; discriminate|congruence].
      destruct (Ht x eq_refl) as [Hx Hnr].
      assert (Hw : forall s', osized' s' -> osized s') by (intros s' (A & B & C); split; auto; split; auto; right; exact C).
      destruct x as [f2 s2|s2|s2|s2]; cbn in Hx.
      - exfalso. eapply Hnr; reflexivity.
      - destruct (nltb (o_box s2) (omin_trust_box_size P)); [split; [discriminate|]; intros j [= <-]; exact Hx|].
        destruct (it >=? omax_iter P)%Z; [split; [discriminate|]; intros j [= <-]; apply Hw; exact Hx|].
        apply IH. apply Hw. exact Hx.
      - split; [discriminate|]; intros j [= <-]; exact Hx.
      - split; [discriminate|]; intros j [= <-]; apply Hw; exact Hx.
    Qed.

    Lemma oinflate_length v c : length (oinflate P v c) = length c.
    Proof. revert c; induction v as [|x v IH]; intros [|y c]; cbn; auto. Qed.

    Lemma osized_merit fuel k i s : osized s -> omerit_loop P E fuel k i s <> Undef.
    Proof.
      revert i s; induction k as [|k IH]; intros i s Hs; cbn [omerit_loop];
        destruct (nltb (nofZ i) (omax_merit_coeff_increases P)); try discriminate.
      destruct (osized_sqp fuel fuel 1 s Hs) as [Hu Hj].
      destruct (osqp_loop P E fuel fuel 1 s) as [j| |]; cbn [obind]; [|discriminate|congruence].
      specialize (Hj j eq_refl). destruct j as [s1|st1 s1]; [|discriminate].
      destruct (ofeasible P s1); [discriminate|].
      destruct Hj as (Hx & Hm & Hc).
      destruct (oadjust P s1) as [s2| |] eqn:Ea; cbn [obind].
      - apply IH. apply oadjust_spec in Ea as (A & B & C & D & _ & _ & F & G).
        split; [congruence|]. split.
        + destruct (oinflate_individually P).
          * destruct (F eq_refl) as [_ ->]. rewrite oinflate_length. exact Hm.
          * rewrite (G eq_refl), map_length. exact Hm.
        + right. destruct Hc as (C1 & C2 & C3). rewrite A, B, C, D. repeat split; auto.
      - discriminate.
      - exfalso. revert Ea. unfold oadjust. destruct Hc as (_ & Hv & _). rewrite Hv, Hviol, Hm, Nat.eqb_refl.
        cbn [negb]. rewrite andb_false_r. discriminate.
    Qed.

    Lemma optimize_no_assert fuel x w0 : length x = n -> o_trace w0 = [] -> optimize P E fuel (oinitialize x w0) <> Undef.
    Proof.
      intros Hx Ht. unfold optimize. destruct (o_x (oinitialize x w0)) as [|x0 xs] eqn:Ex; [discriminate|].
      match goal with |- context [omerit_loop _ _ _ _ _ ?s] => set (s0 := s) end.
      assert (Hs : osized s0).
      { split; [|split].
        - unfold s0. cbn. rewrite Hproj. exact Hx.
        - unfold s0. cbn. apply repeat_length.
        - left. unfold s0. cbn. auto. }
      pose proof (osized_merit fuel fuel 0 s0 Hs) as Hn.
      destruct (omerit_loop P E fuel fuel 0 s0) as [[st s1]| |]; cbn; congruence.
    Qed.
  End Sized.
End Generic.

(** * Over the reals *)
Section RSec.
  Context {W : Type}.
  Variable P : oparams R.
  Variable E : oenv R W.
  Notation osst := (osst R W).

  (** ** Monotone merit (C11) *)
  Definition cur_merit (s : osst) : R := omerit_of (o_cost_vals s) (o_cnt_viols s) (o_merit s).
  Definition ominv (m0 : R) (s : osst) : Prop := omerit_run m0 (o_trace s) (cur_merit s) /\ (1 <= o_nfe s)%Z.

  Lemma ominv_body m0 f s x : ominv m0 s -> otr_body P E f s = Ok x -> ominv m0 (xstate x).
  Proof.
    intros [Hm Hn1] Hb. apply otr_body_spec in Hb as (Hmm & _ & Hb). unfold ominv, cur_merit in *.
    destruct x as [f' s'|s'|s'|s']; cbn [xstate] in *; rewrite Hmm.
    - destruct Hb as (_ & -> & -> & Hn & [(_ & -> & _)|(_ & -> & _)]); (split; [|lia]); repeat constructor; exact Hm.
    - destruct Hb as (vals & old & new & _ & _ & _ & -> & -> & Ho & Hn & Hlt & _).
      split; [|lia]. rewrite <- Hn. constructor.
      + constructor. rewrite Ho. exact Hm.
      + rnum. rcmp. lra.
    - destruct Hb as (_ & -> & -> & -> & -> & _). split; [|lia]. repeat constructor; exact Hm.
    - destruct Hb as (_ & -> & -> & -> & -> & _). split; [|lia]. repeat constructor; exact Hm.
  Qed.

  Definition m_start (x : list R) : R :=
    omerit_of (o_costs E x) (o_viols E x) (repeat (oinitial_merit_error_coeff P) (o_ncnt E)).

  (** before the first evaluation: nothing happened yet *)
  Definition opre (x : list R) (s : osst) : Prop :=
    o_trace s = [] /\ o_cost_vals s = [] /\ o_cnt_viols s = [] /\ o_x s = x /\
    o_merit s = repeat (oinitial_merit_error_coeff P) (o_ncnt E).

  Lemma ominv_prepare x s s' : opre x s \/ ominv (m_start x) s -> oprepare E s = Ok s' -> ominv (m_start x) s'.
  Proof.
    intros Hi Hp. apply oprepare_spec in Hp as (Hp & Hx & _ & Hm & _). unfold ominv, cur_merit in *. rewrite Hm.
    destruct Hp as [(H1 & H2 & H3 & -> & -> & -> & ->)|(-> & -> & -> & -> & Hne)].
    - destruct Hi as [(T1 & T2 & T3 & T4 & T5)|[_ Hi]]; [|lia].
      rewrite T1, T4, T5. split; [|lia]. constructor. constructor.
    - destruct Hi as [(T1 & T2 & T3 & _)|[Hi Hn]]; [exfalso; auto|]. split; auto. constructor. exact Hi.
  Qed.

  Lemma osqp_minv x fuel k it s j : opre x s \/ ominv (m_start x) s -> osqp_loop P E fuel k it s = Ok j ->
    match j with JPenalty s' => ominv (m_start x) s' | JCleanup _ s' => opre x s' \/ ominv (m_start x) s' end.
  Proof.
    revert it s; induction k as [|k IH]; intros it s HI; cbn [osqp_loop]; try discriminate.
    destruct (o_clock E (o_world s)) as [w el].
    destruct (nltb (omax_time P) el); [intros [= <-]; exact HI|].
    destruct (oprepare E (with_oworld s w)) as [s1| |] eqn:Ep; cbn [obind]; try discriminate.
    apply (ominv_prepare x) in Ep; [|exact HI].
    destruct (otr_loop P E fuel 0 s1) as [y| |] eqn:Et; cbn [obind]; try discriminate.
    apply (otr_inv P E (ominv (m_start x))) in Et; [|intros; eapply ominv_body; eauto|exact Ep].
    destruct y as [f2 s2|s2|s2|s2]; cbn in Et; try discriminate.
    - destruct (nltb (o_box s2) (omin_trust_box_size P)); [intros [= <-]; exact Et|].
      destruct (it >=? omax_iter P)%Z; [intros [= <-]; right; exact Et|].
      apply IH; right; exact Et.
    - intros [= <-]; exact Et.
    - intros [= <-]; right; exact Et.
  Qed.

  Lemma omerit_minv x fuel k i s st s' : opre x s \/ ominv (m_start x) s -> omerit_loop P E fuel k i s = Ok (st, s') ->
    opre x s' \/ ominv (m_start x) s'.
  Proof.
    revert i s; induction k as [|k IH]; intros i s HI; cbn [omerit_loop];
      destruct (nltb (nofZ i) (omax_merit_coeff_increases P)); try discriminate;
      try (intros [= _ <-]; exact HI).
    destruct (osqp_loop P E fuel fuel 1 s) as [j| |] eqn:Ej; cbn [obind]; try discriminate.
    apply (osqp_minv x) in Ej; auto.
    destruct j as [s1|st1 s1]; [|intros [= _ <-]; exact Ej].
    destruct (ofeasible P s1) eqn:Ef; [intros [= _ <-]; right; exact Ej|].
    destruct (oadjust P s1) as [s2| |] eqn:Ea; cbn [obind]; try discriminate.
    apply IH. right. apply oadjust_spec in Ea as (A & B & C & D & _ & F & _). destruct Ej as [Ej En].
    split; [|lia]. rewrite F. econstructor. exact Ej.
  Qed.

  Lemma optimize_merit fuel x w0 st s' : o_trace w0 = [] ->
    optimize P E fuel (oinitialize x w0) = Ok (Some (st, s')) ->
    o_trace s' = [] \/
    omerit_run (m_start (o_project E x)) (o_trace s') (omerit_of (o_cost_vals s') (o_cnt_viols s') (o_merit s')).
  Proof.
    intros Ht Ho. apply optimize_inv_eq in Ho as (s0 & s1 & _ & -> & Hm & ->).
    apply (omerit_minv (o_project E x)) in Hm.
    - destruct Hm as [(A & _)|[A _]]; [left; exact A|right; exact A].
    - left. unfold opre. cbn. auto.
  Qed.

  (** ** Termination (C12) *)
  Section Term.
    Hypothesis Hshrink : (0 <= otrust_shrink_ratio P < 1)%R.
    Hypothesis Hmin : (0 < omin_trust_box_size P)%R.

    Lemma pow_below (a : R) : exists N : nat, (a * otrust_shrink_ratio P ^ N < omin_trust_box_size P)%R.
    Proof.
      destruct (Rle_dec a 0) as [Ha|Ha].
      - exists 0%nat. simpl. lra.
      - destruct (pow_lt_1_zero (otrust_shrink_ratio P)) with (y := (omin_trust_box_size P / a)%R) as (N & HN).
        + rewrite Rabs_right; lra.
        + apply Rdiv_lt_0_compat; lra.
        + exists N. specialize (HN N (le_n _)).
          rewrite Rabs_right in HN by (apply Rle_ge, pow_le; lra).
          apply Rmult_lt_reg_r with (/ a)%R; [apply Rinv_0_lt_compat; lra|].
          replace (a * otrust_shrink_ratio P ^ N * / a)%R with (otrust_shrink_ratio P ^ N)%R by (field; lra).
          exact HN.
    Qed.

    (** a loop that starts with the box at the minimum needs two more iterations *)
    Lemma otr_terminates_shrink N f s : (0 <= o_box s)%R ->
      (o_box s * otrust_shrink_ratio P ^ N < omin_trust_box_size P)%R ->
      (forall s' f', o_box s' = omin_trust_box_size P -> (omax_qp_solver_failures P <= f')%Z ->
         exists K, otr_loop P E K f' s' <> NoFuel) ->
      exists K, otr_loop P E K f s <> NoFuel.
    Proof.
      revert f s; induction N as [|N IH]; intros f s H0 HN Hmn.
      - exists 0%nat. cbn [otr_loop]. rnum. 
        replace (Rleb (omin_trust_box_size P) (o_box s)) with false; [discriminate|].
        symmetry. apply Rleb_false. simpl in HN. lra.
      - destruct (otr_body P E f s) as [y| |] eqn:Eb.
        2,3: exists 1%nat; cbn [otr_loop]; rewrite Eb; destruct (nleb _ _); discriminate || (exfalso).
        2: { revert Eb. unfold otr_body. cbn [o_world with_oworld].
             destruct (o_qp E _) as [w [vals|]].
             - cbn zeta. destruct (_ || _); [discriminate|].
               destruct (nltb _ (omin_approx_improve P)); [discriminate|].
               destruct (nltb _ (omin_approx_improve_frac P)); [discriminate|].
               destruct (_ || _); discriminate.
             - destruct (_ <? _)%Z; [discriminate|]. destruct (_ =? _)%Z; discriminate. }
        destruct y as [f' s'|s'|s'|s'].
        2-4: exists 1%nat; cbn [otr_loop]; rewrite Eb; destruct (nleb _ _); discriminate.
        assert (Hx : exists K, otr_loop P E K f' s' <> NoFuel).
        { pose proof (otr_body_spec P E f s _ Eb) as (_ & _ & _ & _ & _ & _ & Hcase).
          assert (Hbx : o_box s' = nmul (o_box s) (otrust_shrink_ratio P) ->
             exists K, otr_loop P E K f' s' <> NoFuel).
          { intros Hb. revert Hb. rnum. intros Hb. apply IH; auto; rewrite Hb.
            - apply Rmult_le_pos; lra.
            - rewrite Rmult_assoc. exact HN. }
          destruct Hcase as [(_ & _ & Hb)|(-> & _ & [(Hb & _)|(Hb & Hf)])]; auto.
          apply Hmn; [exact Hb|lia]. }
        destruct Hx as (K & HK). exists (S K). cbn [otr_loop].
        destruct (nleb (omin_trust_box_size P) (o_box s)); [|discriminate]. rewrite Eb. exact HK.
    Qed.

    Lemma otr_terminates f s : exists K, otr_loop P E K f s <> NoFuel.
    Proof.
      destruct (Rle_dec (omin_trust_box_size P) (o_box s)) as [Hle|Hgt].
      2: { exists 0%nat. cbn [otr_loop]. rnum.
           replace (Rleb (omin_trust_box_size P) (o_box s)) with false; [discriminate|].
           symmetry. apply Rleb_false. lra. }
      destruct (pow_below (o_box s)) as (N & HN).
      apply (otr_terminates_shrink N); [lra|exact HN|].
      intros s' f' Hb Hf.
      destruct (pow_below (o_box s')) as (N' & HN').
      (* beyond the failure limit the body never resets the box to the minimum *)
      clear - Hshrink Hmin Hb Hf HN'.
      assert (H0 : (0 <= o_box s')%R) by lra. clear Hb.
      revert f' s' Hf H0 HN'. induction N' as [|N IH]; intros f s Hf H0 HN.
      - exists 0%nat. cbn [otr_loop]. rnum.
        replace (Rleb (omin_trust_box_size P) (o_box s)) with false; [discriminate|].
        symmetry. apply Rleb_false. simpl in HN. lra.
      - destruct (otr_body P E f s) as [[f' s'|s'|s'|s']| |] eqn:Eb.
        2-4,6: exists 1%nat; cbn [otr_loop]; rewrite Eb; destruct (nleb _ _); discriminate.
        2: { exfalso. revert Eb. unfold otr_body. cbn [o_world with_oworld].
             destruct (o_qp E _) as [w [vals|]].
             - cbn zeta. destruct (_ || _); [discriminate|].
               destruct (nltb _ (omin_approx_improve P)); [discriminate|].
               destruct (nltb _ (omin_approx_improve_frac P)); [discriminate|].
               destruct (_ || _); discriminate.
             - destruct (_ <? _)%Z; [discriminate|]. destruct (_ =? _)%Z; discriminate. }
        assert (Hx : exists K, otr_loop P E K f' s' <> NoFuel).
        { pose proof (otr_body_spec P E f s _ Eb) as (_ & _ & _ & _ & _ & _ & Hcase).
          destruct Hcase as [(-> & _ & Hb)|(-> & _ & [(_ & Hc)|(_ & Hc)])]; [|lia|lia].
          revert Hb. rnum. intros Hb. apply IH; auto; rewrite Hb.
          - apply Rmult_le_pos; lra.
          - rewrite Rmult_assoc. exact HN. }
        destruct Hx as (K & HK). exists (S K). cbn [otr_loop].
        destruct (nleb (omin_trust_box_size P) (o_box s)); [|discriminate]. rewrite Eb. exact HK.
    Qed.

    Lemma oprepare_fuel s : oprepare E s <> NoFuel.
    Proof.
      unfold oprepare. cbn. destruct (o_cost_vals s); [destruct (o_cnt_viols s)|]; cbn; try discriminate.
      destruct (o_nfe s =? 0)%Z; discriminate.
    Qed.

    Lemma osqp_terminates n it s : (omax_iter P - it < Z.of_nat n)%Z ->
      exists K, osqp_loop P E K K it s <> NoFuel.
    Proof.
      revert it s; induction n as [|n IH]; intros it s Hn.
      all: destruct (oprepare E (with_oworld s (fst (o_clock E (o_world s))))) as [s1| |] eqn:Ep;
        [|exfalso; exact (oprepare_fuel _ Ep)|
          exists 1%nat; cbn [osqp_loop]; destruct (o_clock E (o_world s)) as [w el]; cbn in Ep;
          destruct (nltb (omax_time P) el); [discriminate|]; rewrite Ep; discriminate].
      all: destruct (otr_terminates 0 s1) as (K & HK).
      all: assert (Hrest : exists K2, forall s2, otr_loop P E K 0 s1 = Ok (XBreak s2) ->
             nltb (o_box s2) (omin_trust_box_size P) = false -> (it >=? omax_iter P)%Z = false ->
             osqp_loop P E K2 K2 (it + 1) s2 <> NoFuel).
      1: { exists 0%nat. intros s2 _ _ Hge. exfalso. rewrite Z.geb_leb in Hge. apply Z.leb_gt in Hge. lia. }
      2: { destruct (otr_loop P E K 0 s1) as [[f2 s2|s2|s2|s2]| |].
           2: { destruct (IH (it + 1)%Z s2) as (K2 & HK2); [lia|]. exists K2.
                intros s3 [= <-] _ _. exact HK2. }
           all: exists 0%nat; discriminate. }
      all: destruct Hrest as (K2 & HK2); exists (S (K + K2)); cbn [osqp_loop];
        destruct (o_clock E (o_world s)) as [w el]; cbn in Ep;
        destruct (nltb (omax_time P) el); [discriminate|]; rewrite Ep; cbn [obind];
        rewrite (otr_mono P E K (S (K + K2))) by (lia || exact HK);
        destruct (otr_loop P E K 0 s1) as [[f2 s2|s2|s2|s2]| |]; cbn [obind]; try congruence;
        destruct (nltb (o_box s2) (omin_trust_box_size P)) eqn:Eb; [discriminate|];
        destruct (it >=? omax_iter P)%Z eqn:Ei; [discriminate|];
        specialize (HK2 s2 eq_refl Eb eq_refl);
        rewrite (osqp_mono P E K2 (S (K + K2)) K2 (K + K2)) by (lia || exact HK2); exact HK2.
    Qed.

    Lemma omerit_terminates n i s : (omax_merit_coeff_increases P <= IZR (i + Z.of_nat n))%R ->
      exists K, omerit_loop P E K K i s <> NoFuel.
    Proof.
      revert i s; induction n as [|n IH]; intros i s Hn.
      - exists 0%nat. cbn [omerit_loop]. rnum.
        replace (Rltb (IZR i) (omax_merit_coeff_increases P)) with false; [discriminate|].
        symmetry. apply Rltb_false. rewrite Z.add_0_r in Hn. lra.
      - destruct (osqp_terminates (S (Z.to_nat (omax_iter P - 1))) 1 s) as (K & HK); [lia|].
        assert (Hrest : exists K2, forall s1 s2, osqp_loop P E K K 1 s = Ok (JPenalty s1) -> oadjust P s1 = Ok s2 ->
           omerit_loop P E K2 K2 (i + 1) s2 <> NoFuel).
        { destruct (osqp_loop P E K K 1 s) as [[s1|st s1]| |]; try (exists 0%nat; discriminate).
          destruct (oadjust P s1) as [s2| |] eqn:Ea.
          - destruct (IH (i + 1)%Z s2) as (K2 & HK2).
            + replace (i + 1 + Z.of_nat n)%Z with (i + Z.of_nat (S n))%Z by lia. exact Hn.
            + exists K2. intros s3 s4 [= <-] Ha. congruence.
          - exists 0%nat. intros s3 s4 [= <-]. congruence.
          - exists 0%nat. intros s3 s4 [= <-]. congruence. }
        destruct Hrest as (K2 & HK2). exists (S (K + K2)). cbn [omerit_loop].
        destruct (nltb (nofZ i) (omax_merit_coeff_increases P)); [|discriminate].
        rewrite (osqp_mono P E K (S (K + K2)) K (S (K + K2))) by (lia || exact HK).
        destruct (osqp_loop P E K K 1 s) as [[s1|st s1]| |]; cbn [obind]; try congruence.
        destruct (ofeasible P s1); [discriminate|].
        destruct (oadjust P s1) as [s2| |] eqn:Ea; cbn [obind].
        + specialize (HK2 s1 s2 eq_refl Ea).
          rewrite (omerit_mono P E K2 (S (K + K2)) K2 (K + K2)) by (lia || exact HK2). exact HK2.
        + exfalso. revert Ea. unfold oadjust. destruct (_ && _); discriminate.
        + discriminate.
    Qed.

    Lemma optimize_terminates s : exists K r, r <> NoFuel /\ forall fuel, (K <= fuel)%nat -> optimize P E fuel s = r.
    Proof.
      destruct (o_x s) as [|x0 xs] eqn:Ex.
      { exists 0%nat, (Ok None). split; [discriminate|]. intros fuel _. unfold optimize. rewrite Ex. reflexivity. }
      assert (Hn : exists n, (omax_merit_coeff_increases P <= INR n)%R).
      { exists (Z.to_nat (up (omax_merit_coeff_increases P))).
        destruct (archimed (omax_merit_coeff_increases P)) as [H1 _]. rewrite INR_IZR_INZ.
        apply Rle_trans with (IZR (up (omax_merit_coeff_increases P))); [lra|]. apply IZR_le. lia. }
      destruct Hn as (n & Hn).
      destruct (omerit_terminates n 0 (with_point (with_omerit s (repeat (oinitial_merit_error_coeff P) (o_ncnt E)))
        (o_project E (o_x s)) (o_cost_vals s) (o_cnt_viols s))) as (K & HK).
      { rewrite Z.add_0_l, <- INR_IZR_INZ. lra. }
      exists K, (optimize P E K s). split.
      - unfold optimize. rewrite Ex. cbn [o_x with_omerit].
        intros Hx. apply HK. cbn in Hx |- *.
        destruct (omerit_loop P E K K 0 _) as [[st s1]| |]; cbn in Hx; congruence.
      - intros fuel Hf. unfold optimize. rewrite Ex. cbn [o_x with_omerit].
        f_equal. apply omerit_mono; auto.
    Qed.
  End Term.

  (** ** number of penalty adjustments *)
  Lemma omerit_penalties fuel k i s st s' : omerit_loop P E fuel k i s = Ok (st, s') ->
    exists ev, o_trace s' = ev ++ o_trace s /\
      (openalties ev = 0%nat \/ (IZR (i + Z.of_nat (openalties ev) - 1) < omax_merit_coeff_increases P)%R).
  Proof.
    revert i s; induction k as [|k IH]; intros i s; cbn [omerit_loop];
      destruct (nltb (nofZ i) (omax_merit_coeff_increases P)) eqn:Ei; try discriminate;
      try (intros [= _ <-]; exists []; cbn; split; auto; lia).
    destruct (osqp_loop P E fuel fuel 1 s) as [j| |] eqn:Ej; cbn [obind]; try discriminate.
    apply osqp_count in Ej as (ev & Ht & Hp & _).
    destruct j as [s1|st1 s1]; cbn in Ht; [|intros [= _ <-]; exists ev; auto].
    destruct (ofeasible P s1) eqn:Ef; [intros [= _ <-]; exists ev; auto|].
    destruct (oadjust P s1) as [s2| |] eqn:Ea; cbn [obind]; try discriminate.
    apply oadjust_spec in Ea as (_ & _ & _ & _ & _ & Ht2 & _).
    intros Hr. apply IH in Hr as (ev3 & Ht3 & Hc3).
    exists (ev3 ++ [OPenalty (o_cnt_viols s1) (o_merit s1) (o_merit s2)] ++ ev).
    rewrite Ht3, Ht2, Ht, !app_assoc, <- !app_assoc. cbn [app].
    split; [reflexivity|]. rewrite open_app. cbn. rewrite Hp. right.
    destruct Hc3 as [Hc3|Hc3].
    - rewrite Hc3. cbn. replace (i + 1 - 1)%Z with i by lia. revert Ei. rnum. intros Ei. rcmp. exact Ei.
    - replace (i + Z.of_nat (openalties ev3 + 1) - 1)%Z with (i + 1 + Z.of_nat (openalties ev3) - 1)%Z by lia. exact Hc3.
  Qed.

  Lemma optimize_penalties fuel x w0 st s' : o_trace w0 = [] ->
    optimize P E fuel (oinitialize x w0) = Ok (Some (st, s')) ->
    openalties (o_trace s') = 0%nat \/ (INR (openalties (o_trace s') - 1) < omax_merit_coeff_increases P)%R.
  Proof.
    intros Ht Ho. apply optimize_inv_eq in Ho as (s0 & s1 & _ & -> & Hm & ->).
    apply omerit_penalties in Hm as (ev & Hev & Hc). cbn in Hev. rewrite Ht, app_nil_r in Hev.
    cbn. rewrite Hev. destruct Hc as [Hc|Hc]; [left; exact Hc|].
    destruct (openalties ev) as [|m]; [left; reflexivity|right].
    rewrite INR_IZR_INZ. replace (Z.of_nat (S m - 1)) with (0 + Z.of_nat (S m) - 1)%Z by lia. exact Hc.
  Qed.

  (** ** sufficient decrease of an accepted step *)
  Definition odec_ok (s : osst) : Prop := forall old new, In (OAccept old new) (o_trace s) ->
    exists model : R, (omin_approx_improve P <= old - model)%R /\
       (oimprove_ratio_threshold P * (old - model) <= old - new)%R.

  Lemma optimize_sufficient fuel x w0 st s' : (0 < omin_approx_improve P)%R -> o_trace w0 = [] ->
    optimize P E fuel (oinitialize x w0) = Ok (Some (st, s')) -> odec_ok s'.
  Proof.
    intros Hpos Ht Ho. apply optimize_inv_eq in Ho as (s0 & s1 & _ & -> & Hm & ->).
    change (odec_ok s1). revert Hm. apply (omerit_inv P E odec_ok).
    - intros s w H. exact H.
    - intros s s2 H Hp. apply oprepare_spec in Hp as (Hp & _).
      unfold odec_ok in *. destruct Hp as [(_ & _ & _ & _ & _ & _ & ->)|(_ & _ & _ & -> & _)]; cbn;
        intros old new Hin; repeat (destruct Hin as [Hin|Hin]; [discriminate|]); auto.
    - intros f s y H. unfold otr_body. cbn [o_world with_oworld].
      destruct (o_qp E _) as [w [vals|]].
      + cbn zeta. destruct (_ || _); [discriminate|].
        match goal with |- context [nltb ?a (omin_approx_improve P)] => destruct (nltb a (omin_approx_improve P)) eqn:Ea end.
        { intros [= <-]. unfold odec_ok in *. cbn. intros old new [Hin|Hin]; [discriminate|auto]. }
        match goal with |- context [nltb ?a (omin_approx_improve_frac P)] => destruct (nltb a (omin_approx_improve_frac P)) end.
        { intros [= <-]. unfold odec_ok in *. cbn. intros old new [Hin|Hin]; [discriminate|auto]. }
        match goal with |- context [nltb ?a nzero || nltb ?b ?c] =>
          destruct (nltb a nzero) eqn:Ee; [|destruct (nltb b c) eqn:Er] end; cbn [orb].
        { intros [= <-]. unfold odec_ok in *. cbn. intros old new [Hin|[Hin|Hin]]; [discriminate|discriminate|auto]. }
        { intros [= <-]. unfold odec_ok in *. cbn. intros old new [Hin|[Hin|Hin]]; [discriminate|discriminate|auto]. }
        intros [= <-]. unfold odec_ok in *. cbn. intros old new [Hin|[Hin|Hin]]; [|discriminate|auto].
        injection Hin as <- <-. eexists.
        revert Ea Er. cbn. intros Ea Er. rnum. rcmp. split; [exact Ea|].
        match type of Er with (_ <= ?e / ?d)%R => 
          assert (Hd : (0 < d)%R) by lra;
          apply Rmult_le_compat_r with (r := d) in Er; [|lra];
          unfold Rdiv in Er; rewrite (Rmult_assoc e), Rinv_l, Rmult_1_r in Er by lra; exact Er end.
      + destruct (_ <? _)%Z; [|destruct (_ =? _)%Z]; intros [= <-]; unfold odec_ok in *; cbn;
          intros old new [Hin|Hin]; discriminate || auto.
    - intros s s2 H _ Ha. apply oadjust_spec in Ha as (_ & _ & _ & _ & _ & Htr & _).
      unfold odec_ok in *. rewrite Htr. intros old new [Hin|Hin]; [discriminate|auto].
    - unfold odec_ok. cbn. rewrite Ht. intros old new [].
  Qed.
End RSec.

Lemma otr_failures_0 {T} {NT : Num T} {W} (P : oparams T) (E : oenv T W) fuel s x :
  otr_loop P E fuel 0 s = Ok x ->
  exists ev, o_trace (xstate x) = ev ++ o_trace s /\
    (Z.of_nat (ofailures ev) <= Z.max 0 (omax_qp_solver_failures P) + 1)%Z.
Proof.
  intros H. apply otr_failures in H as (ev & Ht & _ & _ & Hf). exists ev. split; auto. lia.
Qed.
