(** * The convex merit function of a pass, in terms of the convexified costs and constraints only *)
From Coq Require Import List Bool Arith Reals.
From Verif Require Import Num NumFacts RSums ScoExprModel ModelingModel ModelingSpec SolveSpec GurobiSpec RoundSolveSpec MeritModel.
Import ListNotations.
Local Open Scope R_scope.

(** each cost with hinges and absolute values taken exactly, plus each constraint's violation times its coefficient *)
Definition convex_merit (p : cpass R) (x : list R) : R :=
  rsum (fun ops => rsum (op_exact x) ops) (p_costs p) +
  rsum (fun ck => snd ck * (rsum (fun a => Rabs (aff_value a x)) (cc_eqs (fst ck)) + rsum (fun a => Rmax (aff_value a x) 0) (cc_ineqs (fst ck))))
    (combine (p_cnts p) (p_mu p)).

(** how much of the solver's inaccuracy gets into the value *)
Definition op_weight (o : op R) : R :=
  match o with
  | OpHinge _ c => c | OpAbs _ c => 3 * c
  | OpHinges es => INR (length es) | OpL1 es => 3 * INR (length es)
  | _ => 0
  end.
Definition cost_weight (p : cpass R) : R := rsum (fun ops => rsum op_weight ops) (p_costs p).
Definition cnt_weight (p : cpass R) : R :=
  rsum (fun ck => snd ck * (3 * INR (length (cc_eqs (fst ck))) + INR (length (cc_ineqs (fst ck))))) (combine (p_cnts p) (p_mu p)).

(** the constants that get into constraints of the QP *)
Definition small (inf : R) (a : aff R) : Prop := - inf < a_const a < inf.
Definition op_small (inf : R) (o : op R) : Prop :=
  match o with OpHinge a _ | OpAbs a _ => small inf a | OpHinges es | OpL1 es => Forall (small inf) es | _ => True end.
(** a pass over [n] variables *)
Definition pass_ok (inf : R) (n : nat) (p : cpass R) : Prop :=
  Forall (Forall (fun o => op_ok n o /\ op_small inf o)) (p_costs p) /\
  Forall (fun c => Forall (fun a => aff_in n a /\ small inf a) (cc_eqs c ++ cc_ineqs c)) (p_cnts p) /\
  length (p_mu p) = length (p_cnts p) /\ Forall (fun m => 0 <= m) (p_mu p) /\
  Forall (fun b => length (fst (fst b)) = n /\ length (snd (fst b)) = n) (p_solves p).

(** points within the bounds and the problem's linear constraints *)
Definition allowed (inf eps : R) (cnts : list (bool * aff R)) (lo hi x : list R) : Prop :=
  (forall c, In c cnts -> cnt_near eps c x) /\ forall i, (i < length lo)%nat -> near inf eps (nth i lo 0) (nth i hi 0) (nth i x 0).
(** the best of the convex merit function among them, up to what the solver's tolerances allow *)
Definition best_step (inf eps delta : R) cnts lo hi (p : cpass R) (x : list R) : Prop :=
  allowed inf eps cnts lo hi x /\
  forall z, length z = length x -> allowed inf 0 cnts lo hi z -> convex_merit p x <= convex_merit p z + delta + (cost_weight p + cnt_weight p) * eps.

(** no best one: none at all, or the convex merit function decreases without end *)
Definition no_best (inf : R) (n : nat) cnts lo hi (p : cpass R) : Prop :=
  forall z, length z = n -> allowed inf 0 cnts lo hi z -> forall low, exists z', length z' = n /\ allowed inf 0 cnts lo hi z' /\ convex_merit p z' < low.
(** a value for the model's merit at [x] that is not below the convex merit function there and not above it at any allowed point, but for tolerances *)
Definition fair_merit (inf eps delta : R) cnts lo hi (p : cpass R) (x : list R) (m : R) : Prop :=
  convex_merit p x - cost_weight p * eps <= m /\
  forall z, length z = length x -> allowed inf 0 cnts lo hi z -> m <= convex_merit p z + delta + cnt_weight p * eps.

(** the problem and its passes: [ps] made, [p] under way *)
Definition sqp_ok (inf : R) (vars : list (R * R)) (cnts : list (bool * aff R)) (ps : list (cpass R)) (p : cpass R) : Prop :=
  0 < inf /\ Forall (fun c => aff_in (length vars) (snd c) /\ small inf (snd c)) cnts /\ Forall (pass_ok inf (length vars)) (p :: ps).
Definition before (inf : R) (vars : list (R * R)) (cnts : list (bool * aff R)) (ps : list (cpass R)) : list (round R) :=
  pass_rounds inf (length vars) (length cnts) ps.
(** how many variables were created before the pass *)
Definition created (inf : R) vars cnts ps : nat := (length vars + made_v (before inf vars cnts ps))%nat.
Definition present (inf : R) vars cnts ps (p : cpass R) : round R :=
  pass_round inf (created inf vars cnts ps) (length cnts + made_c (before inf vars cnts ps)) p.
(** all calls up to a QP of [p], after [l0] other QPs of it *)
Definition sqp_calls (inf : R) vars cnts ps p l0 lo hi : list (gcall R) := up_to vars cnts (before inf vars cnts ps) (present inf vars cnts ps p) l0 lo hi.
