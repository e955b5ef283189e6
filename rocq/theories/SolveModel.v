(** * Model of optimize() of the OSQP, qpOASES and BPMPD backends

    Sources: trajopt_sco/src/osqp_interface.cpp 440-614, qpoases_interface.cpp 133-150 and 220-261, bpmpd_interface.cpp
    355-541.  The data handed to the solvers are those of BackendModel.v.

    Simplifications: the solver libraries are parameters, what they promise is stated in SolveSpec.v; their numbers and
    statuses are those of their manuals.  Log output is left out.  The settings of OSQP are update_workspace and
    warm_starting; the starting point is left out (it does not enter the problem). *)
From Coq Require Import List ZArith Bool Arith.
From Verif Require Import Num Common ScoExprModel EigenModel BackendModel BackendSpec.
Import ListNotations.

(** solver_interface.hpp 40-45 *)
Inductive cvx_status := CvxSolved | CvxInfeasible | CvxFailed.

(** the result of a member function that may also throw *)
Inductive may_throw (A : Type) := Returns (a : A) | Raises.
Arguments Returns {A}. Arguments Raises {A}.

(** ** OSQP *)
(** osqp_api_constants.h *)
Inductive osqp_status :=
| OSolved | OSolvedInaccurate | OPrimalInfeasible | OPrimalInfeasibleInaccurate | ODualInfeasible | ODualInfeasibleInaccurate
| OMaxIter | OTimeLimit | ONonConvex | OSigint | OUnsolved.
Definition o_is_solved (s : osqp_status) : bool := match s with OSolved | OSolvedInaccurate => true | _ => false end.
Definition o_is_infeasible (s : osqp_status) : bool :=
  match s with OPrimalInfeasible | OPrimalInfeasibleInaccurate | ODualInfeasible | ODualInfeasibleInaccurate => true | _ => false end.

Section Osqp.
  Context {T : Type} {NT : Num T}.
  (** what OSQP does during one optimize(): whether it accepts the data, then return code (true is 0), status_val and
      the point of osqp_solve for a workspace *)
  Record osqp_run := { or_vec : bool; or_mat : bool; or_setup : bool; or_solve : wspace T -> bool * osqp_status * list T }.
  (** the backend, P_, A_ and the workspace, its status_val, solution_ *)
  Record omodel := { om_b : backend T; om_o : osqp T; om_status : osqp_status; om_sol : list T }.
  Definition empty_omodel : omodel :=
    {| om_b := empty_backend; om_o := {| o_P := None; o_A := None; o_ws := None |}; om_status := OUnsolved; om_sol := [] |}.
  (** optimize, 440-614 *)
  Definition osqp_optimize (inf : T) (sz : nat) (updating warm : bool) (r : osqp_run) (s : omodel) : outcome (omodel * cvx_status) :=
    let b := update (om_b s) in
    obind (create_or_update inf sz updating warm (o_is_solved (om_status s)) (or_vec r) (or_mat r) (or_setup r) b (om_o s)) (fun c =>
    if snd c then
      match o_ws (fst c) with
      | Some w =>
          let '(ok, status, x) := or_solve r w in
          if ok : bool then
            (* DblVec(x, x + vars_.size()), 514 *)
            let s := {| om_b := b; om_o := fst c; om_status := status; om_sol := firstn (length (b_vars b)) x |} in
            if (length (b_vars b) <=? length x)%nat then
              Ok (s, if o_is_solved status then CvxSolved else if o_is_infeasible status then CvxInfeasible else CvxFailed)
            else Undef
          else Ok ({| om_b := b; om_o := fst c; om_status := status; om_sol := om_sol s |}, CvxFailed)
      | None => Undef
      end
    else Ok ({| om_b := b; om_o := fst c; om_status := om_status s; om_sol := om_sol s |}, CvxFailed)).
End Osqp.
Arguments osqp_run : clear implicits.
Arguments omodel : clear implicits.

(** ** qpOASES *)
(** SUCCESSFUL_RETURN, RET_INIT_FAILED_INFEASIBILITY and all others *)
Inductive qp_return := QSuccess | QInitInfeasible | QOther.
(** an SQProblem: the constructor, getNV, getNC, isInitialised, hotstart, init, getPrimalSolution.  The last argument of hotstart and
    init and the last result are nWSR: on entry the greatest number of working set recalculations, on return the number performed. *)
Record sqproblem (T : Type) := {
  sq : Type; sq_new : nat -> nat -> sq; sq_nv : sq -> nat; sq_nc : sq -> nat; sq_ready : sq -> bool;
  sq_hotstart : sq -> qpo T -> nat -> sq * qp_return * nat; sq_init : sq -> qpo T -> nat -> sq * qp_return * nat;
  sq_primal : sq -> list T }.
Arguments sq {T}. Arguments sq_new {T}. Arguments sq_nv {T}. Arguments sq_nc {T}. Arguments sq_ready {T}.
Arguments sq_hotstart {T}. Arguments sq_init {T}. Arguments sq_primal {T}.

Section Qpoases.
  Context {T : Type} {NT : Num T} (Q : sqproblem T).
  (** the backend, qpoases_problem_, solution_ *)
  Record qmodel := { qm_b : backend T; qm_p : option (sq Q); qm_sol : list T }.
  Definition empty_qmodel : qmodel := {| qm_b := empty_backend; qm_p := None; qm_sol := [] |}.
  (** updateSolver, 133-144 *)
  Definition update_solver (n m : nat) (p : option (sq Q)) : sq Q :=
    match p with
    | Some p => if (negb (n =? sq_nv Q p)%nat || negb (m =? sq_nc Q p)%nat)%bool then sq_new Q n m else p
    | None => sq_new Q n m
    end.
  (** optimize, 220-261; nWSR is 255 at first and whatever hotstart left in it for init.  createSolver, 146-150. *)
  Definition qpoases_optimize (inf : T) (s : qmodel) : outcome (may_throw (qmodel * cvx_status)) :=
    let b := update (qm_b s) in
    let n := length (b_vars b) in let m := length (b_cnts b) in
    obind (qpoases_data inf b) (fun d =>
    match d with
    | None => Ok Raises
    | Some d =>
        let p := update_solver n m (qm_p s) in
        let '(p, val, nwsr) := if sq_ready Q p then sq_hotstart Q p d 255%nat else (p, QOther, 255%nat) in
        let '(p, val) := match val with
                         | QSuccess => (p, QSuccess)
                         | _ => let '(p, val, _) := sq_init Q (update_solver n m None) d nwsr in (p, val)
                         end in
        match val with
        | QSuccess => Ok (Returns ({| qm_b := b; qm_p := Some p; qm_sol := sq_primal Q p |}, CvxSolved))
        | QInitInfeasible => Ok (Returns ({| qm_b := b; qm_p := Some p; qm_sol := qm_sol s |}, CvxInfeasible))
        | QOther => Ok (Returns ({| qm_b := b; qm_p := Some p; qm_sol := qm_sol s |}, CvxFailed))
        end
    end).
End Qpoases.
Arguments qmodel {T}.

(** ** BPMPD *)
Section Bpmpd.
  Context {T : Type} {NT : Num T}.
  (** the backend and m_soln *)
  Record bmodel := { bm_b : backend T; bm_sol : list T }.
  Definition empty_bmodel : bmodel := {| bm_b := empty_backend; bm_sol := [] |}.
  (** optimize, 355-541; [solve] is the solver at the other end of the pipes (C45), which answers with primal and code *)
  Definition bpmpd_optimize (inf : T) (solve : bpm T -> list T * Z) (s : bmodel) : outcome (bmodel * cvx_status) :=
    let b := update (bm_b s) in
    let n := length (b_vars b) in
    obind (bpmpd_data inf b) (fun d =>
    let (primal, code) := solve d in
    if (n <=? length primal)%nat then
      Ok ({| bm_b := b; bm_sol := firstn n primal |},
          if (code =? 2)%Z then CvxSolved else if ((code =? 3) || (code =? 4))%Z then CvxInfeasible else CvxFailed)
    else Undef).
End Bpmpd.
Arguments bmodel : clear implicits.
