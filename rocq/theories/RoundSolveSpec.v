(** * The passes of the SQP through the OSQP, qpOASES and BPMPD backends

    The calls of BasicTrustRegionSQP::optimize are those of GurobiSpec.v; here they are made to the other backends, where
    Model::addVar(name, lb, ub) is addVar followed by setVarBounds (solver_interface.cpp 111-116). *)
From Coq Require Import List Bool Arith Reals.
From Verif Require Import Num ScoExprModel BackendModel BackendSpec GurobiSpec SolveModel SolveSpec.
Import ListNotations.
Local Open Scope R_scope.

(** [k] variables have been created before; [run] is what the solver does, the result of a QP in GurobiSpec.v is here just a name for it.
    addIneqCnt(QuadExpr) throws in these backends and is not used by the passes. *)
Definition tr1 {A} (run : list R -> A) (k : nat) (c : gcall R) : list (pstep A) :=
  match c with
  | GAddVar lo hi => [Call AddVar; Call (SetBounds k lo hi)]
  | GRemoveVars vs => map (fun v => Call (RemoveVar v)) vs
  | GSetBounds vs lo hi => map (fun b => Call (SetBounds (fst b) (fst (snd b)) (snd (snd b)))) (combine vs (combine lo hi))
  | GAddCnt i e => [Call (AddCnt i e)]
  | GAddQuadCnt _ => []
  | GRemoveCnts cs => map (fun c => Call (RemoveCnt c)) cs
  | GSetAff e => [Call (SetAff e)]
  | GSetQuad q => [Call (SetQuad q)]
  | GUpdate => [Call Update]
  | GOptimize x => [Solve (run x)]
  end.
Definition made1 (k : nat) (c : gcall R) : nat := match c with GAddVar _ _ => S k | _ => k end.
Fixpoint translate {A} (run : list R -> A) (k : nat) (cs : list (gcall R)) : list (pstep A) :=
  match cs with [] => [] | c :: cs => tr1 run k c ++ translate run (made1 k c) cs end.

(** a pass up to one of its QPs: the solves [l0] before it and the bounds [lo], [hi] for it *)
Definition to_solve (n : nat) (r : round R) (l0 : list (list R * list R * list R)) (lo hi : list R) : list (gcall R) :=
  adds_v (r_vars r) ++ [GUpdate] ++ adds_c (r_cnts r) ++ [GUpdate; GSetQuad (r_obj r)] ++ solves n l0 ++ [GSetBounds (seq 0 n) lo hi].

(** ** the QP of a pass, from the problem, the pass and the bounds only *)
Definition cnt_near (eps : R) (c : bool * aff R) (X : list R) : Prop :=
  if fst c then aff_value (snd c) X <= eps else - eps <= aff_value (snd c) X <= eps.
(** [X] holds the values of the [n] variables of the problem, and from position [k] on those of the pass *)
Definition fits_pass (inf eps : R) (k : nat) (cnts : list (bool * aff R)) (r : round R) (lo hi : list R) (X : list R) : Prop :=
  (forall c, In c (cnts ++ r_cnts r) -> cnt_near eps c X) /\
  (forall i, (i < length lo)%nat -> near inf eps (nth i lo 0) (nth i hi 0) (nth i X 0)) /\
  (forall j, (j < length (r_vars r))%nat -> near inf eps (fst (nth j (r_vars r) (0, 0))) (snd (nth j (r_vars r) (0, 0))) (nth (k + j) X 0)).
Definition solves_pass (inf eps delta : R) (k : nat) cnts (r : round R) lo hi (X : list R) : Prop :=
  fits_pass inf eps k cnts r lo hi X /\ forall Y, fits_pass inf 0 k cnts r lo hi Y -> quad_value (r_obj r) X <= quad_value (r_obj r) Y + delta.
(** constants the solver does not take for infinity *)
Definition consts_ok (inf : R) (l : list (bool * aff R)) : Prop := Forall (fun c => - inf < a_const (snd c) < inf) l.
(** no point solves it: there is none, or the objective decreases without end *)
Definition no_solution (inf : R) (k : nat) cnts (r : round R) lo hi : Prop :=
  forall X, fits_pass inf 0 k cnts r lo hi X -> forall low, exists Y, fits_pass inf 0 k cnts r lo hi Y /\ quad_value (r_obj r) Y < low.
(** the problem, the passes made and the one under way *)
Definition passes_ok (inf : R) (vars : list (R * R)) (cnts : list (bool * aff R)) (done : list (round R)) (r : round R) : Prop :=
  let n := length vars in let nc := length cnts in
  0 < inf /\ Forall (fun c => wf_aff (snd c) /\ Forall (fun v => (v < n)%nat) (a_vars (snd c))) cnts /\ rounds_ok n n nc done /\
  round_ok n (n + made_v done) (nc + made_c done) r /\ consts_ok inf cnts /\ (forall r', In r' (r :: done) -> consts_ok inf (r_cnts r')).
(** model.getVarValues(model.getVars()) (optimizers.cpp 390) *)
Definition var_values (b : backend R) (sol : list R) : list (option R) := map (get_value b sol) (b_vars b).
(** [x] for the variables of the problem, [y] for those of the pass; anything between *)
Definition at_ids (x : list R) (k : nat) (y : list R) : list R := x ++ repeat 0 (k - length x) ++ y.
(** the calls up to a QP *)
Definition up_to (vars : list (R * R)) cnts (done : list (round R)) (r : round R) l0 lo hi : list (gcall R) :=
  setup vars cnts ++ rounds (length vars) done ++ to_solve (length vars) r l0 lo hi.
