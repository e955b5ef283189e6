(** * Model of trajopt_sqp::OSQPEigenSolver and of its use by the trust region solver

    trajopt_optimizers/trajopt_sqp/src/osqp_eigen_solver.cpp and trust_region_sqp_solver.cpp 202-244, 262-371; trajopt_qp_problem.cpp 832-858, 1202-1260.

    The library (OsqpEigen and OSQP) is not part of the repository.  What is assumed of it: the setters of its data
    check the dimensions and otherwise store what they are given; an update in place that reports success has stored
    what it was given, one that reports failure may have done anything to that part ([Stale]); initSolver() needs all
    parts to be set.  Whether the other calls succeed is an input.  Infinite bounds are [None].  A failed assertion
    (of the code or of Eigen) is [Undef].  Settings, verbosity, printing and the memory behind the pointers are left
    out, except that clear() leaves the pointers to the resized vectors behind ([Stale]). *)
From Coq Require Import List ZArith Bool Arith.
From Verif Require Import Num Common IfoptModel ExprsModel ModelingModel QpModel.
Import ListNotations.

Inductive part (A : Type) := Unset | Stale | Held (a : A).
Arguments Unset {A}. Arguments Stale {A}. Arguments Held {A} a.
Definition is_set {A} (p : part A) : bool := match p with Unset => false | _ => true end.
Definition outdated {A} (p : part A) : part A := match p with Unset => Unset | _ => Stale end.
Inductive ostatus := Uninitialized | Initialized | Failed.

Section Osqp.
  Context {T : Type} {NT : Num T}.
  Local Open Scope num_scope.

  (** what the QP problem offers: getHessian, getGradient, getConstraintMatrix (with its number of columns),
      getBoundsLower and getBoundsUpper *)
  Record qpd := { d_hess : list (list T); d_grad : list T; d_mat : list (srow T); d_cols : nat;
                  d_lo : list (option T); d_hi : list (option T) }.
  Record solver := { o_ready : bool; o_hess : part (list (list T)); o_grad : part (list T); o_mat : part (list (srow T));
                     o_bnd : part (list T * list T); o_nv : nat; o_nc : nat; o_status : ostatus }.
  (** constructor, 39-46 *)
  Definition solver_new : solver :=
    {| o_ready := false; o_hess := Unset; o_grad := Unset; o_mat := Unset; o_bnd := Unset; o_nv := 0; o_nc := 0; o_status := Uninitialized |}.
  (** init, 63-76 *)
  Definition osqp_init (nv nc : nat) (s : solver) : solver :=
    {| o_ready := o_ready s; o_hess := o_hess s; o_grad := o_grad s; o_mat := o_mat s; o_bnd := o_bnd s;
       o_nv := nv; o_nc := nc; o_status := Initialized |}.
  (** clear, 78-94: the gradient and the bounds stay registered with the library *)
  Definition osqp_clear (s : solver) : solver :=
    {| o_ready := false; o_hess := Unset; o_grad := outdated (o_grad s); o_mat := Unset; o_bnd := outdated (o_bnd s);
       o_nv := 0; o_nc := 0; o_status := Uninitialized |}.

  (** updateHessianMatrix, 220-229: OSQP minimises x'Px/2 *)
  Definition twice (h : list (list T)) : list (list T) := map (map (fun v => nofZ 2 * v)) h.
  Definition update_hess (ok : bool) (h : list (list T)) (s : solver) : bool * solver :=
    let fits := (length h =? o_nv s)%nat in
    let good := if o_ready s then ok && fits else fits in
    (good, {| o_ready := o_ready s; o_hess := if good then Held (twice h) else if o_ready s then Stale else Unset;
              o_grad := o_grad s; o_mat := o_mat s; o_bnd := o_bnd s; o_nv := o_nv s; o_nc := o_nc s; o_status := o_status s |}).
  (** updateGradient, 231-239 *)
  Definition clean (v : T) : T := if nabs v <? ndec 1 (-7) then nzero else v.
  Definition update_grad (ok : bool) (g : list T) (s : solver) : bool * solver :=
    let fits := (length g =? o_nv s)%nat in
    let good := if o_ready s then ok && fits else fits in
    (good, {| o_ready := o_ready s; o_hess := o_hess s; o_grad := if good then Held (map clean g) else outdated (o_grad s);
              o_mat := o_mat s; o_bnd := o_bnd s; o_nv := o_nv s; o_nc := o_nc s; o_status := o_status s |}).
  (** updateLinearConstraintsMatrix, 265-275 *)
  Definition update_mat (ok : bool) (m : list (srow T)) (cols : nat) (s : solver) : outcome (bool * solver) :=
    if (o_nc s =? length m)%nat && (o_nv s =? cols)%nat then
      let good := if o_ready s then ok else true in
      Ok (good, {| o_ready := o_ready s; o_hess := o_hess s; o_grad := o_grad s; o_mat := if good then Held m else Stale;
                   o_bnd := o_bnd s; o_nv := o_nv s; o_nc := o_nc s; o_status := o_status s |})
    else Undef.
  (** updateBounds, 253-263; OSQP_INFTY is 1e30 *)
  Definition clamp_lo (b : option T) : T := match b with None => nopp (ndec 1 30) | Some v => nmax v (nopp (ndec 1 30)) end.
  Definition clamp_hi (b : option T) : T := match b with None => ndec 1 30 | Some v => nmin v (ndec 1 30) end.
  Definition update_bnds (ok : bool) (lo hi : list (option T)) (s : solver) : outcome (bool * solver) :=
    if (length lo =? o_nc s)%nat && (length hi =? o_nc s)%nat then
      let good := if o_ready s then ok else true in
      Ok (good, {| o_ready := o_ready s; o_hess := o_hess s; o_grad := o_grad s; o_mat := o_mat s;
                   o_bnd := if good then Held (map clamp_lo lo, map clamp_hi hi) else Stale;
                   o_nv := o_nv s; o_nc := o_nc s; o_status := o_status s |})
    else Undef.
  (** solve, 96-216: [set_up] is the result of osqp_setup, [solved] whether the library reports a solution.  The first
      component is what the library was asked to solve, if anything *)
  Definition osqp_solve (set_up solved : bool) (s : solver) : option solver * bool * solver :=
    let with_ st r := {| o_ready := r; o_hess := o_hess s; o_grad := o_grad s; o_mat := o_mat s; o_bnd := o_bnd s;
                         o_nv := o_nv s; o_nc := o_nc s; o_status := st |} in
    if o_ready s || (is_set (o_hess s) && is_set (o_grad s) && is_set (o_mat s) && is_set (o_bnd s) && set_up)
    then (Some s, solved, with_ (if solved then o_status s else Failed) true)
    else (None, false, with_ Failed false).

  (** what a convexified TrajOptQPProblem offers: the slack rows and columns of the Hessian are empty,
      trajopt_qp_problem.cpp 832-858, 940-973; getters 1202-1250 *)
  Definition qp_data (p : qp T) : qpd :=
    let c := q_cvx p in let nv := length (c_grad c) in
    let bs := c_rowb c ++ c_varb c ++ map Some (c_slackb c) in
    {| d_hess := map (fun r => r ++ repeat nzero (nv - length r)) (c_hess c) ++ repeat (repeat nzero nv) (nv - length (c_hess c));
       d_grad := c_grad c; d_mat := c_mat c; d_cols := nv;
       d_lo := map (fun ob => match ob with Some b => b_lo b | None => None end) bs;
       d_hi := map (fun ob => match ob with Some b => b_hi b | None => None end) bs |}.

  (** ** stepSQPSolver, trust_region_sqp_solver.cpp 202-244, up to the trust region loop *)
  Definition rebuild (d : qpd) (s : solver) : outcome solver :=
    let s := osqp_init (d_cols d) (length (d_mat d)) (osqp_clear s) in
    let s := snd (update_hess true (d_hess d) s) in
    let s := snd (update_grad true (d_grad d) s) in
    obind (update_mat true (d_mat d) (d_cols d) s) (fun r =>
    obind (update_bnds true (d_lo d) (d_hi d) (snd r)) (fun r => Ok (snd r))).
  (** [prev] are the numbers of QP variables and constraints before convexify(), [oks] the results of the four updates in
      place *)
  Definition prepare (oks : bool * bool * bool * bool) (prev : nat * nat) (d : qpd) (s : solver) : outcome solver :=
    let '(k1, k2, k3, k4) := oks in
    let first_time := match o_status s with Uninitialized => true | _ => false end in
    let dims_changed := negb ((d_cols d =? fst prev)%nat && (length (d_mat d) =? snd prev)%nat) in
    if first_time || dims_changed then rebuild d s
    else
      let r := update_hess k1 (d_hess d) s in
      if negb (fst r) then rebuild d (snd r) else
      let r := update_grad k2 (d_grad d) (snd r) in
      if negb (fst r) then rebuild d (snd r) else
      obind (update_mat k3 (d_mat d) (d_cols d) (snd r)) (fun r =>
      if negb (fst r) then rebuild d (snd r) else
      obind (update_bnds k4 (d_lo d) (d_hi d) (snd r)) (fun r =>
      if negb (fst r) then rebuild d (snd r) else Ok (snd r))).

  (** the solver calls of runTrustRegionLoop, 262-371: solve() (373-376) and, after a resize of the box, updateBounds() whose
      result is not looked at *)
  Inductive event := ESolve (set_up solved : bool) | EBounds (ok : bool) (lo hi : list (option T)).
  Fixpoint run_events (es : list event) (s : solver) : outcome (list (option solver) * solver) :=
    match es with
    | [] => Ok ([], s)
    | ESolve u r :: es => let '(w, _, s) := osqp_solve u r s in
        obind (run_events es s) (fun o => Ok (w :: fst o, snd o))
    | EBounds k lo hi :: es => obind (update_bnds k lo hi s) (fun r => run_events es (snd r))
    end.
  (** the convexification loop with one problem: each iteration offers new data *)
  Fixpoint run_iters (prev : nat * nat) (its : list (qpd * (bool * bool * bool * bool) * list event)) (s : solver)
      : outcome (list (list (option solver)) * solver) :=
    match its with
    | [] => Ok ([], s)
    | (d, oks, es) :: its =>
        obind (prepare oks prev d s) (fun s =>
        obind (run_events es s) (fun o =>
        obind (run_iters (d_cols d, length (d_mat d)) its (snd o)) (fun os => Ok (fst o :: fst os, snd os))))
    end.

  (** ** setWarmStart, osqp_eigen_solver.cpp 277-326; the setting warm_starting is on (55) *)
  (** the entries of one row, 305-318 *)
  Fixpoint warm_row (n : nat) (v : T) (r : srow T) (x0 : list T) : res (list T) :=
    match r with
    | [] => Val x0
    | (c, k) :: r =>
        if (n <=? c)%nat && (nabs k >? ndec 1 (-14)) then
          if (c <? length x0)%nat then warm_row n v r (upd x0 c (nmax nzero (v / k))) else Bad
        else warm_row n v r x0
    end.
  (** row k of the matrix for violation k, 303-319 *)
  Fixpoint warm_rows (n : nat) (vs : list T) (mat : list (srow T)) (x0 : list T) : res (list T) :=
    match vs, mat with
    | [], _ => Val x0
    | _ :: _, [] => Bad
    | v :: vs, r :: mat => rbind (warm_row n v r x0) (warm_rows n vs mat)
    end.
  (** the primal start x0_ for the problem [p], [nv] being num_vars_ *)
  Definition warm_start (nv : nat) (p : qp T) : res (list T) :=
    let x := q_x p in let n := length x in
    if (n <=? nv)%nat then
      let x0 := x ++ repeat nzero (nv - n) in
      if (0 <? nv - n)%nat
      then rbind (eval_convex_violations p x) (fun vs => warm_rows n vs (c_mat (q_cvx p)) x0)
      else Val x0
    else Bad.
End Osqp.
Arguments qpd : clear implicits.
Arguments solver : clear implicits.
Arguments event : clear implicits.
