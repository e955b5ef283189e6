(** * Model of trajopt_sqp::TrajOptQPProblem

    Source: trajopt_optimizers/trajopt_sqp/src/trajopt_qp_problem.cpp.

    Simplifications: a cost or constraint set is a function from the variable values to its rows,
    values, coefficients, Jacobian and bounds ([tm_at]) and to the number update() returns
    ([tm_count]); the hash of setVariables() is taken to be faithful, so that update() has always been
    called for the current values.  Infinite bounds are [None] (IfoptModel).  The entries of
    bounds_lower / bounds_upper are kept in three parts, constraint rows, variable rows and slack rows;
    an entry nobody has written since the last resize is [None].  Sparse matrices are lists of rows; the
    Hessian is its dense upper left block (the slack rows and columns are empty).  [Bad] is a failed
    assertion or an out-of-range access, [Throws] an exception.  Scratch buffers, names, the counts of
    non-zeros (used for reserve() only) and print() are left out.  The square root is a parameter. *)
From Coq Require Import List ZArith Bool Arith.
From Verif Require Import Num IfoptModel ExprsModel.
Import ListNotations.
Local Open Scope num_scope.

Inductive itype := IObjective | IHinge | IAbsolute | IMerit.
Inductive penalty := PSquared | PAbsolute | PHinge.

Section Qp.
  Context {T : Type} {NT : Num T}.
  Variable sq : T -> T.

  Record term := { tm_dyn : bool; tm_at : list T -> comp T; tm_count : list T -> nat }.

  (** ComponentInfo, 74-81 *)
  Record info := { in_type : itype; in_rows : nat; in_coeffs : list T; in_bounds : list (bnd T) }.

  (** the sets added so far, 282-305 *)
  Record sources := { s_sq : list term; s_dsq : list term; s_hinge : list term; s_dhinge : list term;
                      s_abs : list term; s_dabs : list term; s_cnt : list term; s_dcnt : list term }.
  (** what setup() assembles: objective_terms, penalty_constraints, merit_constraints,
      has_dyn_component, n_nlp_vars, var_bounds_* *)
  Record layout := { l_obj : list term; l_pen : list term; l_mer : list term; l_dyn : bool;
                     l_n : nat; l_vbnds : list (bnd T) }.
  (** what update() maintains: the component infos and the row counts *)
  Record tables := { i_obj : list info; i_pen : list info; i_mer : list info;
                     n_obj : nat; n_pen : nat; n_mer : nat }.
  (** the convex problem, ConvexProblem 83-129 *)
  Record convex := { c_target : list T; c_const : list T; c_nlp : option (quads T);
                     c_hess : list (list T); c_grad : list T; c_mat : list (srow T);
                     c_rowb : list (option (bnd T)); c_varb : list (option (bnd T)); c_slackb : list (bnd T) }.
  Record qp := { q_x : list T; q_bnds : list (bnd T); q_src : sources; q_init : bool;
                 q_ndyn : nat; q_prev : option nat;
                 q_lay : layout; q_box : list T; q_merit : list T; q_tab : tables; q_cvx : convex }.

  Definition no_sources : sources :=
    {| s_sq := []; s_dsq := []; s_hinge := []; s_dhinge := []; s_abs := []; s_dabs := []; s_cnt := []; s_dcnt := [] |}.
  (** constructor, 248-252 and the member initialisers 260-345 *)
  Definition qp_new (x : list T) (bs : list (bnd T)) : qp :=
    {| q_x := x; q_bnds := bs; q_src := no_sources; q_init := false; q_ndyn := 0; q_prev := None;
       q_lay := {| l_obj := []; l_pen := []; l_mer := []; l_dyn := false; l_n := 0; l_vbnds := [] |};
       q_box := []; q_merit := [];
       q_tab := {| i_obj := []; i_pen := []; i_mer := []; n_obj := 0; n_pen := 0; n_mer := 0 |};
       q_cvx := {| c_target := []; c_const := []; c_nlp := None; c_hess := []; c_grad := []; c_mat := [];
                   c_rowb := []; c_varb := []; c_slackb := [] |} |}.

  Definition with_src (p : qp) (s : sources) : qp :=
    {| q_x := q_x p; q_bnds := q_bnds p; q_src := s; q_init := false; q_ndyn := q_ndyn p; q_prev := q_prev p;
       q_lay := q_lay p; q_box := q_box p; q_merit := q_merit p; q_tab := q_tab p; q_cvx := q_cvx p |}.
  Definition with_cvx (p : qp) (c : convex) : qp :=
    {| q_x := q_x p; q_bnds := q_bnds p; q_src := q_src p; q_init := q_init p; q_ndyn := q_ndyn p; q_prev := q_prev p;
       q_lay := q_lay p; q_box := q_box p; q_merit := q_merit p; q_tab := q_tab p; q_cvx := c |}.

  (** addConstraintSet, 405-415 *)
  Definition add_constraint (p : qp) (t : term) : qp :=
    let s := q_src p in
    with_src p {| s_sq := s_sq s; s_dsq := s_dsq s; s_hinge := s_hinge s; s_dhinge := s_dhinge s;
                  s_abs := s_abs s; s_dabs := s_dabs s;
                  s_cnt := if tm_dyn t then s_cnt s else s_cnt s ++ [t];
                  s_dcnt := if tm_dyn t then s_dcnt s ++ [t] else s_dcnt s |}.
  (** addCostSet, 417-477: the types of the bounds are checked when the set is added *)
  Definition is_eq (b : bnd T) : bool := match type_of b with Equality => true | _ => false end.
  Definition is_ineq (b : bnd T) : bool := match type_of b with LowerBound | UpperBound => true | _ => false end.
  Definition add_cost (p : qp) (t : term) (k : penalty) : res qp :=
    let s := q_src p in
    let bs := cm_bounds (tm_at t (q_x p)) in
    match k with
    | PSquared => if forallb is_eq bs then
        Val (with_src p {| s_sq := if tm_dyn t then s_sq s else s_sq s ++ [t];
                           s_dsq := if tm_dyn t then s_dsq s ++ [t] else s_dsq s;
                           s_hinge := s_hinge s; s_dhinge := s_dhinge s; s_abs := s_abs s; s_dabs := s_dabs s;
                           s_cnt := s_cnt s; s_dcnt := s_dcnt s |}) else Throws
    | PAbsolute => if forallb is_eq bs then
        Val (with_src p {| s_sq := s_sq s; s_dsq := s_dsq s; s_hinge := s_hinge s; s_dhinge := s_dhinge s;
                           s_abs := if tm_dyn t then s_abs s else s_abs s ++ [t];
                           s_dabs := if tm_dyn t then s_dabs s ++ [t] else s_dabs s;
                           s_cnt := s_cnt s; s_dcnt := s_dcnt s |}) else Throws
    | PHinge => if forallb is_ineq bs then
        Val (with_src p {| s_sq := s_sq s; s_dsq := s_dsq s;
                           s_hinge := if tm_dyn t then s_hinge s else s_hinge s ++ [t];
                           s_dhinge := if tm_dyn t then s_dhinge s ++ [t] else s_dhinge s;
                           s_abs := s_abs s; s_dabs := s_dabs s; s_cnt := s_cnt s; s_dcnt := s_dcnt s |}) else Throws
    end.

  Definition info_of (t : itype) (c : comp T) : info :=
    {| in_type := t; in_rows := cm_rows c; in_coeffs := cm_coeffs c; in_bounds := cm_bounds c |}.
  Definition blank (t : itype) : info := {| in_type := t; in_rows := 0; in_coeffs := []; in_bounds := [] |}.
  Definition rows_at (x : list T) (ts : list term) : nat := list_sum (map (fun t => cm_rows (tm_at t x)) ts).
  (** the loops of update(), 495-556: an initialised problem keeps the infos of its static sets *)
  Definition refresh (init : bool) (x : list T) (ts : list term) (is : list info) : list info :=
    map (fun p => if (init && negb (tm_dyn (fst p)))%bool then snd p
                  else info_of (in_type (snd p)) (tm_at (fst p) x)) (combine ts is).
  (** update(), 479-566 *)
  Definition update (p : qp) : qp :=
    let l := q_lay p in let x := q_x p in let t := q_tab p in
    if (q_init p && (negb (l_dyn l) || (match q_prev p with Some 0 => true | _ => false end && (q_ndyn p =? 0)%nat)))%bool
    then p
    else
      let np := rows_at x (l_pen l) in let nm := rows_at x (l_mer l) in
      {| q_x := x; q_bnds := q_bnds p; q_src := q_src p; q_init := q_init p;
         q_ndyn := q_ndyn p; q_prev := Some (q_ndyn p); q_lay := l; q_box := q_box p; q_merit := q_merit p;
         q_tab := {| i_obj := refresh (q_init p) x (l_obj l) (i_obj t);
                     i_pen := refresh (q_init p) x (l_pen l) (i_pen t);
                     i_mer := refresh (q_init p) x (l_mer l) (i_mer t);
                     n_obj := rows_at x (l_obj l); n_pen := np; n_mer := nm |};
         q_cvx := let c := q_cvx p in
           {| c_target := repeat nzero (rows_at x (l_obj l)); c_const := repeat nzero (np + nm); c_nlp := c_nlp c;
              c_hess := c_hess c; c_grad := c_grad c; c_mat := c_mat c;
              c_rowb := repeat None (np + nm); c_varb := repeat None (l_n l); c_slackb := [] |} |}.
  Definition count_dyn (x : list T) (ts : list term) : nat :=
    list_sum (map (fun t => if tm_dyn t then tm_count t x else 0%nat) ts).
  (** setup(), 568-698 *)
  Definition setup (p : qp) : qp :=
    let s := q_src p in let x := q_x p in
    let obj := s_sq s ++ s_dsq s in
    let pen := s_hinge s ++ s_dhinge s ++ s_abs s ++ s_dabs s in
    let mer := s_cnt s ++ s_dcnt s in
    let p1 := update
      {| q_x := x; q_bnds := q_bnds p; q_src := s; q_init := q_init p;
         q_ndyn := count_dyn x (obj ++ pen ++ mer); q_prev := q_prev p;
         q_lay := {| l_obj := obj; l_pen := pen; l_mer := mer; l_dyn := existsb tm_dyn (obj ++ pen ++ mer);
                     l_n := length x; l_vbnds := q_bnds p |};
         q_box := repeat (ndec 1 (-1)) (length x); q_merit := repeat (nofZ 10) (length mer);
         q_tab := {| i_obj := map (fun _ => blank IObjective) obj;
                     i_pen := map (fun _ => blank IHinge) (s_hinge s ++ s_dhinge s) ++ map (fun _ => blank IAbsolute) (s_abs s ++ s_dabs s);
                     i_mer := map (fun _ => blank IMerit) mer;
                     n_obj := rows_at x obj; n_pen := rows_at x pen; n_mer := rows_at x mer |};
         q_cvx := q_cvx p |} in
    {| q_x := q_x p1; q_bnds := q_bnds p1; q_src := q_src p1; q_init := true; q_ndyn := q_ndyn p1; q_prev := q_prev p1;
       q_lay := q_lay p1; q_box := q_box p1; q_merit := q_merit p1; q_tab := q_tab p1; q_cvx := q_cvx p1 |}.
  (** setVariables, 700-716 *)
  Definition set_variables (p : qp) (x : list T) : qp :=
    let l := q_lay p in
    {| q_x := x; q_bnds := q_bnds p; q_src := q_src p; q_init := q_init p;
       q_ndyn := count_dyn x (l_obj l ++ l_pen l ++ l_mer l); q_prev := q_prev p;
       q_lay := l; q_box := q_box p; q_merit := q_merit p; q_tab := q_tab p; q_cvx := q_cvx p |}.

  (** ** convexify(), 720-973 *)
  (** entries below 1e-7 become explicit zeros, 778-781, 944-947 *)
  Definition thr (v : T) : T := if nabs v <? ndec 1 (-7) then nzero else v.
  Definition thr_row (r : srow T) : srow T := map (fun cv => (fst cv, thr (snd cv))) r.

  (** slack columns of a row by the type of its bounds, 800-826 *)
  Definition slack_signs (t : btype) : option (list T) :=
    match t with
    | Equality => Some [none_; nopp none_]
    | LowerBound => Some [none_]
    | UpperBound => Some [nopp none_]
    | _ => None
    end.
  (** the assertions 798, 802, 811, 818 *)
  Definition type_ok (i : itype) (t : btype) : bool :=
    match i, t with
    | IObjective, _ => false
    | IHinge, Equality => false
    | IAbsolute, (LowerBound | UpperBound) => false
    | _, _ => true
    end.
  (** what the loop over the constraint sets accumulates: matrix rows, constants, row bounds and
      cache_slack_gradient (one entry per slack variable) *)
  Record acc := { a_rows : list (srow T); a_const : list T; a_bnds : list (bnd T); a_slack : list T }.
  (** one row, 773-827: its entries [jr], constant [c], bounds [b] and weight [w] *)
  Definition row_step (n : nat) (ty : itype) (merit : T) (jr : srow T) (c : T) (b : bnd T) (w : T) (a : acc) : res acc :=
    if type_ok ty (type_of b) then
      match slack_signs (type_of b) with
      | None => Throws
      | Some ss => Val {| a_rows := a_rows a ++ [thr_row jr ++ combine (seq (n + length (a_slack a)) (length ss)) ss];
                          a_const := a_const a ++ [c]; a_bnds := a_bnds a ++ [shift b c];
                          a_slack := a_slack a ++ map (fun _ => merit * w) ss |}
      end
    else Bad.
  Fixpoint rows_loop (n : nat) (ty : itype) (merit : T) (js : list (srow T)) (cs : list T) (bs : list (bnd T)) (ws : list T) (a : acc) : res acc :=
    match js, cs with
    | [], _ => Val a
    | jr :: js, c :: cs =>
        match bs, ws with
        | b :: bs, w :: ws => rbind (row_step n ty merit jr c b w a) (rows_loop n ty merit js cs bs ws)
        | _, _ => Bad
        end
    | _, [] => Bad
    end.
  (** one constraint set, 746-829; [k] is merit_constraint_index, [size] the size of constraint_constant *)
  Definition set_step (n size : nat) (x merits : list T) (ti : term * info) (ka : nat * acc) : res (nat * acc) :=
    let '(k, a) := ka in let i := snd ti in let c := tm_at (fst ti) x in
    if (in_rows i =? 0)%nat then Val (k, a)
    else if ((length (a_const a) + in_rows i <=? size) && (length (cm_vals c) =? in_rows i) && (length (cm_jac c) =? in_rows i))%nat%bool then
      let cc := vzip nsub (cm_vals c) (jac_mul (cm_jac c) x) in
      match in_type i with
      | IMerit => match nth_error merits k with
                  | Some m => rbind (rows_loop n (in_type i) m (cm_jac c) cc (in_bounds i) (in_coeffs i) a) (fun a => Val (S k, a))
                  | None => Bad
                  end
      | _ => rbind (rows_loop n (in_type i) none_ (cm_jac c) cc (in_bounds i) (in_coeffs i) a) (fun a => Val (k, a))
      end
    else Bad.
  Fixpoint sets_loop (n size : nat) (x merits : list T) (tis : list (term * info)) (ka : nat * acc) : res (nat * acc) :=
    match tis with
    | [] => Val ka
    | ti :: tis => rbind (set_step n size x merits ti ka) (sets_loop n size x merits tis)
    end.

  Definition mzip (a b : list (list T)) : list (list T) := map (fun p => vzip nadd (fst p) (snd p)) (combine a b).
  (** overwrite the entries of [l] from [row] on with [v] *)
  Definition put {A} (l : list A) (row : nat) (v : list A) : res (list A) :=
    if (row + length v <=? length l)%nat then Val (firstn row l ++ v ++ skipn (row + length v) l) else Bad.
  Fixpoint lowers (bs : list (bnd T)) : res (list T) :=
    match bs with
    | [] => Val []
    | b :: bs => match b_lo b with Some l => rbind (lowers bs) (fun ls => Val (l :: ls)) | None => Bad end
    end.
  (** one squared cost, 873-922; an infinite target is outside the model *)
  Definition obj_step (n : nat) (x : list T) (ti : term * info) (st : nat * list T * quads T) : res (nat * list T * quads T) :=
    let '(row, target, q) := st in let c := tm_at (fst ti) x in
    rbind (lowers (in_bounds (snd ti))) (fun ls =>
    rbind (put target row ls) (fun target =>
    rbind (ae_create (cm_vals c) (cm_jac c) x) (fun a =>
    if ((row + cm_rows c <=? length target) && (length (ae_const a) =? cm_rows c))%nat%bool then
      let a' := {| ae_const := vzip nsub (firstn (cm_rows c) (skipn row target)) (ae_const a);
                   ae_lin := map (map (fun cv => (fst cv, snd cv * nopp none_))) (ae_lin a) |} in
      rbind (ae_square sq n a' (cm_coeffs c)) (fun e =>
      Val ((row + cm_rows c)%nat, target,
           {| qe_const := qe_const q ++ qe_const e; qe_lin := qe_lin q ++ qe_lin e; qe_quad := qe_quad q ++ qe_quad e;
              qe_obj_lin := vzip nadd (qe_obj_lin q) (qe_obj_lin e);
              qe_obj_quad := mzip (qe_obj_quad q) (qe_obj_quad e) |}))
    else Bad))).
  Fixpoint obj_loop (n : nat) (x : list T) (tis : list (term * info)) (st : nat * list T * quads T) : res (nat * list T * quads T) :=
    match tis with
    | [] => Val st
    | ti :: tis => rbind (obj_step n x ti st) (obj_loop n x tis)
    end.
  Definition quads_zero (n : nat) : quads T :=
    {| qe_const := []; qe_lin := []; qe_quad := []; qe_obj_lin := repeat nzero n; qe_obj_quad := repeat (repeat nzero n) n |}.
  (** rows that no term has written stay zero (setZero 863-869) *)
  Definition pad_quads (m : nat) (q : quads T) : quads T :=
    let k := (m - length (qe_const q))%nat in
    {| qe_const := qe_const q ++ repeat nzero k; qe_lin := qe_lin q ++ repeat [] k; qe_quad := qe_quad q ++ repeat [] k;
       qe_obj_lin := qe_obj_lin q; qe_obj_quad := qe_obj_quad q |}.

  (** updateNLPVariableBounds, 1094-1116, one variable *)
  Definition box_row (b : bnd T) (x bi : T) : bnd T :=
    let xi := if lt_lo x b then lo_or b x else if gt_hi x b then hi_or b x else x in
    {| b_lo := Some match b_lo b with Some l => nmax (xi - bi) l | None => xi - bi end;
       b_hi := Some match b_hi b with Some u => nmin (xi + bi) u | None => xi + bi end |}.
  Definition box_rows (bs : list (bnd T)) (x box : list T) : list (bnd T) :=
    map (fun t => box_row (fst (fst t)) (snd (fst t)) (snd t)) (combine (combine bs x) box).
  Definition update_box (p : qp) (box : list T) : res qp :=
    if ((length (c_varb (q_cvx p)) =? l_n (q_lay p)) && (length box =? l_n (q_lay p)) && (length (q_x p) =? l_n (q_lay p)) && (length (l_vbnds (q_lay p)) =? l_n (q_lay p)))%nat%bool then
      let c := q_cvx p in
      Val {| q_x := q_x p; q_bnds := q_bnds p; q_src := q_src p; q_init := q_init p; q_ndyn := q_ndyn p; q_prev := q_prev p;
             q_lay := q_lay p; q_box := box; q_merit := q_merit p; q_tab := q_tab p;
             q_cvx := {| c_target := c_target c; c_const := c_const c; c_nlp := c_nlp c; c_hess := c_hess c; c_grad := c_grad c;
                         c_mat := c_mat c; c_rowb := c_rowb c;
                         c_varb := map Some (box_rows (l_vbnds (q_lay p)) (q_x p) box); c_slackb := c_slackb c |} |}
    else Bad.
  (** scaleBoxSize, 1046-1050, and setBoxSize, 1052-1057 *)
  Definition scale_box (p : qp) (k : T) : res qp := update_box p (map (fun b => b * k) (q_box p)).
  Definition set_box (p : qp) (box : list T) : res qp := if (length box =? length (q_x p))%nat then update_box p box else Bad.
  (** setConstraintMeritCoeff, 1059-1063 *)
  Definition set_merit (p : qp) (m : list T) : res qp :=
    if (length m =? length (s_cnt (q_src p)) + length (s_dcnt (q_src p)))%nat then
      Val {| q_x := q_x p; q_bnds := q_bnds p; q_src := q_src p; q_init := q_init p; q_ndyn := q_ndyn p; q_prev := q_prev p;
             q_lay := q_lay p; q_box := q_box p; q_merit := m; q_tab := q_tab p; q_cvx := q_cvx p |}
    else Bad.

  Definition convexify (p : qp) : res qp :=
    if q_init p then
      let p := update p in
      let l := q_lay p in let t := q_tab p in let c := q_cvx p in let x := q_x p in let n := l_n l in
      let ncon := (n_pen t + n_mer t)%nat in
      rbind (sets_loop n (length (c_const c)) x (q_merit p) (combine (l_pen l ++ l_mer l) (i_pen t ++ i_mer t))
               (0%nat, {| a_rows := []; a_const := []; a_bnds := []; a_slack := [] |})) (fun ka =>
      let a := snd ka in let ns := length (a_slack a) in
      rbind (put (c_const c) 0 (a_const a)) (fun consts =>
      rbind (put (c_rowb c) 0 (map Some (a_bnds a))) (fun rowb =>
      rbind (if (0 <? n_obj t)%nat
             then rbind (obj_loop n x (combine (l_obj l) (i_obj t)) (0%nat, c_target c, quads_zero n)) (fun st =>
                    Val (snd (fst st), Some (pad_quads (n_obj t) (snd st)), qe_obj_lin (snd st), map (map thr) (qe_obj_quad (snd st))))
             else Val (c_target c, c_nlp c, repeat nzero n, repeat (repeat nzero n) n)) (fun o =>
      let '(target, nlp, lin, hess) := o in
      update_box (with_cvx p
        {| c_target := target; c_const := consts; c_nlp := nlp; c_hess := hess; c_grad := lin ++ a_slack a;
           c_mat := a_rows a ++ repeat [] (ncon - length (a_rows a)) ++ map (fun i => [(i, none_)]) (seq 0 (n + ns));
           c_rowb := rowb; c_varb := c_varb c; c_slackb := repeat {| b_lo := Some nzero; b_hi := None |} ns |}) (q_box p)))))
    else Bad.

  (** ** Evaluation *)
  Definition segment {A} (l : list A) (row k : nat) : res (list A) :=
    if (row + k <=? length l)%nat then Val (firstn k (skipn row l)) else Bad.
  Fixpoint segment_sums (vs : list T) (rows : list nat) (row : nat) : res (list T) :=
    match rows with
    | [] => Val []
    | r :: rows => rbind (segment vs row r) (fun s => rbind (segment_sums vs rows (row + r)) (fun out => Val (vsum s :: out)))
    end.
  (** violations of the linearised sets [is] from row [row] on by the point [z]; [cut] drops the
      columns that are not below it, 167-197 and 211-241 *)
  Definition leftcols (cut : nat) (r : srow T) : srow T := filter (fun cv => (fst cv <? cut)%nat) r.
  Fixpoint set_viols (c : convex) (cut : nat) (z : list T) (is : list info) (row : nat) : res (list T) :=
    match is with
    | [] => Val []
    | i :: is =>
        if (in_rows i =? 0)%nat then rbind (set_viols c cut z is row) (fun out => Val (nzero :: out))
        else rbind (segment (c_mat c) row (in_rows i)) (fun jac =>
             rbind (segment (c_const c) row (in_rows i)) (fun con =>
             rbind (bounds_violations (in_bounds i) (vzip nadd con (jac_mul (map (leftcols cut) jac) z))) (fun err =>
             rbind (set_viols c cut z is (row + in_rows i)) (fun out => Val (vsum err :: out)))))
    end.
  (** evaluateConvexCosts, 131-200; [z] holds the slack variables as well *)
  Definition eval_convex_costs (p : qp) (z : list T) : res (list T) :=
    let t := q_tab p in let c := q_cvx p in let n := l_n (q_lay p) in
    if (length (c_grad c) =? length z)%nat then
      rbind (match i_obj t with
             | [] => Val []
             | _ => match c_nlp c with
                    | Some q => if (length (qe_const q) =? n_obj t)%nat
                                then rbind (qe_values q (firstn n z)) (fun vs => segment_sums vs (map in_rows (i_obj t)) 0)
                                else Bad
                    | None => if (n =? 0)%nat then segment_sums [] (map in_rows (i_obj t)) 0 else Bad
                    end
             end) (fun obj =>
      rbind (set_viols c (length z) z (i_pen t) 0) (fun pen => Val (obj ++ pen)))
    else Bad.
  (** evaluateConvexConstraintViolations, 202-244 *)
  Definition eval_convex_violations (p : qp) (z : list T) : res (list T) :=
    set_viols (q_cvx p) (l_n (q_lay p)) (firstn (l_n (q_lay p)) z) (i_mer (q_tab p)) (n_pen (q_tab p)).

  (** getExactCosts, 977-1020, and getExactConstraintViolations, 1022-1044 *)
  Definition exact_squared (c : comp T) : res T :=
    if (cm_rows c =? 0)%nat then Val nzero
    else if ((length (cm_vals c) =? cm_rows c) && (length (cm_coeffs c) =? cm_rows c))%nat%bool
    then rbind (bounds_violations (cm_bounds c) (cm_vals c)) (fun e => Val (vsum (vzip nmul (vzip nmul e e) (cm_coeffs c))))
    else Bad.
  Definition exact_violation (c : comp T) : res T :=
    if (cm_rows c =? 0)%nat then Val nzero
    else if (length (cm_vals c) =? cm_rows c)%nat
    then rbind (bounds_violations (cm_bounds c) (cm_vals c)) (fun e => Val (vsum e)) else Bad.
  Fixpoint mapr {A B} (f : A -> res B) (l : list A) : res (list B) :=
    match l with [] => Val [] | a :: l => rbind (f a) (fun b => rbind (mapr f l) (fun bs => Val (b :: bs))) end.
  Definition exact_costs (p : qp) : res (list T) :=
    if q_init p then
      rbind (mapr (fun t => exact_squared (tm_at t (q_x p))) (l_obj (q_lay p))) (fun a =>
      rbind (mapr (fun t => exact_violation (tm_at t (q_x p))) (l_pen (q_lay p))) (fun b => Val (a ++ b)))
    else Bad.
  Definition exact_violations (p : qp) : res (list T) :=
    mapr (fun t => exact_violation (tm_at t (q_x p))) (l_mer (q_lay p)).
End Qp.
Arguments term : clear implicits.
Arguments info : clear implicits.
Arguments sources : clear implicits.
Arguments layout : clear implicits.
Arguments tables : clear implicits.
Arguments convex : clear implicits.
Arguments qp : clear implicits.
Arguments acc : clear implicits.
