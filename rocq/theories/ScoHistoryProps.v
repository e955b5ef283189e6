(** * C76, C77: sco optimizer, box size / penalties / final statuses *)
From Coq Require Import List ZArith QArith Bool Lia.
From Verif Require Import Num NumFacts Common ScoOptModel ScoOptSpec ScoOptProofs ScoOptExamples ScoHistory.
Import ListNotations.

(** ** C76 *)
Theorem C76_box_follows_history :
  forall (T : Type) (NT : Num T) (W : Type) (P : oparams T) (E : oenv T W) fuel x s0 st s,
    o_trace s0 = [] -> optimize P E fuel (oinitialize x s0) = Ok (Some (st, s)) ->
    o_box s = obox_hist P (o_box s0) (o_trace s) /\
    forall newer ok older, o_trace s = newer ++ OQP ok :: older ->
      nleb (omin_trust_box_size P) (obox_hist P (o_box s0) older) = true.
Proof.
  intros T NT W P E fuel x s0 st s Ht Ho. apply optimize_hist in Ho as ((A & _ & C) & _); auto.
  split; [exact A|]. intros newer ok older. eapply ohist_ok_qp; eauto.
Qed.
Print Assumptions C76_box_follows_history.

Theorem C76_penalty_rule :
  forall (T : Type) (NT : Num T) (W : Type) (P : oparams T) (E : oenv T W) fuel x s0 st s,
    o_trace s0 = [] -> optimize P E fuel (oinitialize x s0) = Ok (Some (st, s)) ->
    o_merit s = ocoeff_hist P (o_ncnt E) (o_trace s) /\
    forall newer v b a older, o_trace s = newer ++ OPenalty v b a :: older ->
      b = ocoeff_hist P (o_ncnt E) older /\ length a = length b /\
      forall i, (i < length b)%nat ->
        nth i a nzero = (if negb (oinflate_individually P) || nltb (ocnt_tolerance P) (nth i v nzero)
                         then nmul (nth i b nzero) (omerit_coeff_increase_ratio P) else nth i b nzero).
Proof.
  intros T NT W P E fuel x s0 st s Ht Ho. apply optimize_hist in Ho as ((_ & B & C) & _); auto.
  split; [exact B|]. intros newer v b a older Htr. eapply ohist_ok_pen in Htr; [|exact C]. exact Htr.
Qed.
Print Assumptions C76_penalty_rule.

(** minimise x^2 subject to x >= 1 with a solver that never moves: all five penalty rounds *)
Definition ostuck := optimize (odefaults 50 3) oexq 50
  (oinitialize [0%Q] (ofresh (1 # 10) (omk (repeat (Some [0%Q]) 20) []))).
Example C76_ex : exists s, ostuck = Ok (Some (OPT_PENALTY_ITERATION_LIMIT, s)) /\
  Forall2 Qeq (o_merit s) [1000000%Q] /\ openalties (o_trace s) = 5%nat.
Proof. eexists. split; [vm_compute; reflexivity|]. split; [repeat constructor|reflexivity]. Qed.

(** ** C77 *)
Theorem C77_limits_are_real :
  forall (T : Type) (NT : Num T) (W : Type) (P : oparams T) (E : oenv T W) fuel x s0 st s,
    o_trace s0 = [] -> optimize P E fuel (oinitialize x s0) = Ok (Some (st, s)) ->
    match st with
    | OPT_TIME_LIMIT =>
        (exists w w' t, o_clock E w = (w', t) /\ nltb (omax_time P) t = true) /\
        exists m, vmaxc (o_viols E (o_x s)) = Some m /\ nltb m (ocnt_tolerance P) = false
    | OPT_SCO_ITERATION_LIMIT =>
        (omax_iter P <= Z.of_nat (oconv_since (o_trace s)))%Z /\
        exists m, vmaxc (o_viols E (o_x s)) = Some m /\ nltb m (ocnt_tolerance P) = false
    | OPT_FAILED => (omax_qp_solver_failures P < Z.of_nat (ofails_since (o_trace s)))%Z
    | OPT_PENALTY_ITERATION_LIMIT =>
        nltb (nofZ (Z.of_nat (openalties (o_trace s)))) (omax_merit_coeff_increases P) = false /\
        (openalties (o_trace s) = 0%nat \/
         exists m, vmaxc (o_viols E (o_x s)) = Some m /\ nltb m (ocnt_tolerance P) = false)
    | OPT_CONVERGED => True
    end.
Proof.
  intros T NT W P E fuel x s0 st s Ht Ho. pose proof Ho as Hc. apply optimize_fresh in Hc; auto.
  apply optimize_hist in Ho as (_ & Ho); auto.
  assert (Hf : ofeasible P s = false -> exists m, vmaxc (o_viols E (o_x s)) = Some m /\ nltb m (ocnt_tolerance P) = false).
  { intros Hf. apply ofeasible_false in Hf as (m & Hm & Hl). exists m. split; auto.
    destruct Hc as [(_ & Hc & _)|(_ & <- & _)]; [|exact Hm]. rewrite Hc in Hm. discriminate. }
  destruct st; auto; destruct Ho as [A B]; split; auto. destruct B; auto.
Qed.
Print Assumptions C77_limits_are_real.

Definition oslow := optimize (odefaults 50 3) oexq 50
  (oinitialize [0%Q] (ofresh (1 # 10) (omk (repeat (Some [(1 # 2)%Q]) 20) [0%Q; 2000%Q]))).
Definition oshort := optimize (odefaults 1 3) oexq 50
  (oinitialize [0%Q] (ofresh (1 # 10) (omk (repeat (Some [(1 # 2)%Q]) 20) []))).
Example C77_ex :
  (exists s, oslow = Ok (Some (OPT_TIME_LIMIT, s)) /\ o_cnt_viols s = [(1 # 2)%Q]) /\
  (exists s, oshort = Ok (Some (OPT_SCO_ITERATION_LIMIT, s)) /\ oconv_since (o_trace s) = 1%nat) /\
  (exists s, ofail 3 = Ok (Some (OPT_FAILED, s)) /\ ofails_since (o_trace s) = 4%nat).
Proof. repeat split; eexists; (split; [vm_compute; reflexivity|]); reflexivity. Qed.
