(** * What is expected of a run of BasicTrustRegionSQP::optimize *)
From Coq Require Import List Bool Arith Reals.
From Verif Require Import Num RSums ScoExprModel ModelingModel ModelingSpec BackendModel SolveModel SolveSpec ScoOptModel MeritModel MeritSpec RunModel.
Import ListNotations.
Local Open Scope R_scope.

(** linear constraints and limits hold up to [eps]; limits beyond +-[inf] are none *)
Definition keeps (inf eps : R) (F : prob) (x : list R) : Prop := allowed inf eps (f_lin F) (f_lb F) (f_ub F) x.
(** the points a run started at [x0] can be at: where getClosestFeasiblePoint puts [x0], or one that keeps the limits *)
Definition visited (inf eps : R) (F : prob) (x0 x : list R) : Prop := x = closest_feasible (f_lb F) (f_ub F) x0 (1 / 1000) \/ keeps inf eps F x.
(** a problem that is put together properly: sizes fit, limits are in order, the expressions are over the problem's variables; the convex
    models, which may be different ones at each point, have constants below the library's infinity *)
Definition prob_ok (inf eps : R) (F : prob) (x0 : list R) : Prop :=
  let n := length (f_vars F) in
  0 < inf /\ length (f_lb F) = n /\ length (f_ub F) = n /\ (forall i, (i < n)%nat -> nth i (f_lb F) 0 <= nth i (f_ub F) 0) /\
  Forall (fun c => aff_in n (snd c) /\ small inf (snd c)) (f_lin F) /\
  (forall x, length x = n -> visited inf eps F x0 x ->
     length (f_viols F x) = f_ncnt F /\ length (f_ccnts F x) = f_ncnt F /\ (f_costs F x <> [] \/ f_viols F x <> []) /\
     Forall (Forall (fun o => op_ok n o /\ op_small inf o)) (f_ccosts F x) /\
     Forall (fun c => Forall (fun a => aff_in n a /\ small inf a) (cc_eqs c ++ cc_ineqs c)) (f_ccnts F x)).
Definition params_ok (P : oparams R) : Prop := 0 <= oinitial_merit_error_coeff P /\ 0 <= omerit_coeff_increase_ratio P.

(** what is asked of the library: its answers are right up to [eps] and [delta]; it finds an answer to its [i]-th QP if there is one (for
    qpOASES this is said of QPs without a hot start, see C129_again_refuted) *)
Definition honest (inf eps delta : R) (lib : library) : Prop :=
  match lib with
  | Osqp _ _ solver => forall i, osqp_honest inf eps delta (solver i)
  | Qpoases Q => qpoases_honest inf eps delta Q
  | Bpmpd solver => forall i, bpmpd_honest inf eps delta (solver i)
  end.
Definition able (inf : R) (lib : library) (i : nat) : Prop :=
  match lib with
  | Osqp _ _ solver => osqp_able inf (solver i)
  | Qpoases Q => qpoases_able inf Q /\ forall p, sq_ready Q p = false
  | Bpmpd solver => bpmpd_able inf (solver i)
  end.

(** the merit function: costs plus violations times coefficients; and the convexified one at [x] *)
Definition merit (F : prob) (mu x : list R) : R := rsum (fun c => c) (f_costs F x) + rsum (fun vm => snd vm * fst vm) (combine (f_viols F x) mu).
Definition convexified (F : prob) (mu x : list R) : cpass R := {| p_costs := f_ccosts F x; p_cnts := f_ccnts F x; p_mu := mu; p_solves := [] |}.
(** within the limits and the trust region around [x] *)
Definition in_region (inf : R) (F : prob) (x : list R) (box : R) (z : list R) : Prop :=
  length z = length x /\ (forall c, In c (f_lin F) -> if fst c then aff_value (snd c) z <= 0 else aff_value (snd c) z = 0) /\
  forall i, (i < length x)%nat -> nth i (f_lb F) 0 <= nth i z 0 <= nth i (f_ub F) 0 /\ Rabs (nth i z 0 - nth i x 0) <= box.

(** a point on the way from [x] to [z]; a function that is convex along the lines from [x] *)
Definition towards (t : R) (x z : list R) : list R := map (fun p => fst p + t * (snd p - fst p)) (combine x z).
Definition convex_from (x : list R) (f : list R -> R) : Prop := forall z t, length z = length x -> 0 <= t <= 1 -> f (towards t x z) <= (1 - t) * f x + t * f z.
