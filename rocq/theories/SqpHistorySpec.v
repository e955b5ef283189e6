(** The trust-box size and the penalty coefficients as functions of the observable history (a
    trace of events, newest first).  Used by C74 and C75. *)
From Coq Require Import List ZArith Bool.
From Verif Require Import Num SqpModel.
Import ListNotations.

Section History.
  Context {T : Type} {NT : Num T}.
  Variable P : sqp_params T.

  (** failed QPs since the last convexification *)
  Fixpoint fails_since (tr : list (event T)) : nat :=
    match tr with
    | [] | EvConvexify :: _ => 0
    | EvQP false :: r => S (fails_since r)
    | _ :: r => fails_since r
    end.

  (** Documented rule: grow on success, shrink on rejection and on a failed QP, drop to the minimum on
      the last tolerated failure, and restart from a usable size after a penalty change. *)
  Fixpoint box_hist (tr : list (event T)) : T :=
    match tr with
    | [] => initial_trust_box_size P
    | EvAccept _ _ :: r => nmul (trust_expand_ratio P) (box_hist r)
    | EvReject :: r => nmul (trust_shrink_ratio P) (box_hist r)
    | EvQP false :: r =>
        match Z.compare (Z.of_nat (S (fails_since r))) (max_qp_solver_failures P) with
        | Lt => nmul (trust_shrink_ratio P) (box_hist r)
        | Eq => min_trust_box_size P
        | Gt => box_hist r
        end
    | EvPenalty _ _ _ :: r =>
        nfmax (box_hist r) (nmul (ndiv (min_trust_box_size P) (trust_shrink_ratio P)) (ndec 15 (-1)))
    | _ :: r => box_hist r
    end.

  Variable n_cnt : nat.
  Fixpoint coeff_hist (tr : list (event T)) : list T :=
    match tr with
    | [] => repeat (initial_merit_error_coeff P) n_cnt
    | EvPenalty _ _ after :: _ => after
    | _ :: r => coeff_hist r
    end.

  (** number of QPs solved *)
  Fixpoint qps (tr : list (event T)) : Z :=
    match tr with [] => 0 | EvQP _ :: r => (qps r + 1)%Z | _ :: r => qps r end.
  Fixpoint pens (tr : list (event T)) : Z :=
    match tr with [] => 0 | EvPenalty _ _ _ :: r => (pens r + 1)%Z | _ :: r => pens r end.
End History.
