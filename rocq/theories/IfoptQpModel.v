(** * Model of trajopt_sqp::IfoptQPProblem

    Source: trajopt_optimizers/trajopt_sqp/src/ifopt_qp_problem.cpp.

    Simplifications: as in QpModel; a cost or constraint set is a function from the variable values to its
    rows ([comp]); dynamic sets are rejected by addConstraintSet / addCostSet (44-45, 53-54) and left out.
    The entries of bounds_lower_ / bounds_upper_ are kept in three parts.  Names and print() are left out.
    The Hessian is its dense upper left block.  The square root is a parameter. *)
From Coq Require Import List ZArith Bool Arith.
From Verif Require Import Num IfoptModel ExprsModel QpModel.
Import ListNotations.
Local Open Scope num_scope.

Section IfoptQp.
  Context {T : Type} {NT : Num T}.
  Variable sq : T -> T.

  Definition source := list T -> comp T.
  Record iqp := { iq_x : list T; iq_bnds : list (bnd T);
                  iq_raw : list source;                  (* cost_constraints_ *)
                  iq_costs : list (penalty * source);    (* costs of nlp_ *)
                  iq_cnts : list source;                 (* constraints of nlp_ *)
                  iq_n : nat; iq_ncnt : nat; iq_ncost : nat; iq_types : list btype;
                  iq_box : list T; iq_merit : list T;
                  iq_hess : list (list T); iq_grad : list T; iq_mat : list (srow T);
                  iq_rowb : list (bnd T); iq_varb : list (bnd T); iq_slackb : list (bnd T);
                  iq_cconst : list T;                    (* cost_constant_ *)
                  iq_kconst : list T }.                  (* constraint_constant_ *)

  (** constructor, 36-39 *)
  Definition iqp_new (x : list T) (bs : list (bnd T)) : iqp :=
    {| iq_x := x; iq_bnds := bs; iq_raw := []; iq_costs := []; iq_cnts := []; iq_n := 0; iq_ncnt := 0; iq_ncost := 0; iq_types := [];
       iq_box := []; iq_merit := []; iq_hess := []; iq_grad := []; iq_mat := []; iq_rowb := []; iq_varb := []; iq_slackb := [];
       iq_cconst := []; iq_kconst := [] |}.
  Definition with_sets (p : iqp) (raw : list source) (costs : list (penalty * source)) (cnts : list source) : iqp :=
    {| iq_x := iq_x p; iq_bnds := iq_bnds p; iq_raw := raw; iq_costs := costs; iq_cnts := cnts;
       iq_n := iq_n p; iq_ncnt := iq_ncnt p; iq_ncost := iq_ncost p; iq_types := iq_types p; iq_box := iq_box p; iq_merit := iq_merit p;
       iq_hess := iq_hess p; iq_grad := iq_grad p; iq_mat := iq_mat p; iq_rowb := iq_rowb p; iq_varb := iq_varb p; iq_slackb := iq_slackb p;
       iq_cconst := iq_cconst p; iq_kconst := iq_kconst p |}.
  (** addConstraintSet, 42-48 *)
  Definition iadd_constraint (p : iqp) (t : source) : iqp := with_sets p (iq_raw p) (iq_costs p) (iq_cnts p ++ [t]).
  (** addCostSet, 50-78: the set is remembered before the type of the penalty is looked at; the flag
      tells whether an exception was thrown *)
  Definition iadd_cost (p : iqp) (t : source) (k : penalty) : iqp * bool :=
    match k with
    | PHinge => (with_sets p (iq_raw p ++ [t]) (iq_costs p) (iq_cnts p), true)
    | _ => (with_sets p (iq_raw p ++ [t]) (iq_costs p ++ [(k, t)]) (iq_cnts p), false)
    end.

  (** the rows of all constraints; nlp_->getConstraints() *)
  Definition icomps (p : iqp) : list (comp T) := map (fun t => t (iq_x p)) (iq_cnts p).
  Definition istack (p : iqp) : composite T := ct_build StackRows (icomps p).
  (** setup(), 80-141 *)
  Definition isetup (p : iqp) : res iqp :=
    let bs := ct_bounds (istack p) in let n := length (iq_x p) in
    if forallb (fun b => match @slack_signs T NT (type_of b) with Some _ => true | None => false end) bs then
      let ns := list_sum (map (fun b => match @slack_signs T NT (type_of b) with Some s => length s | None => 0%nat end) bs) in
      let nb m := repeat {| b_lo := None; b_hi := None |} m in
      Val {| iq_x := iq_x p; iq_bnds := iq_bnds p; iq_raw := iq_raw p; iq_costs := iq_costs p; iq_cnts := iq_cnts p;
             iq_n := n; iq_ncnt := length bs; iq_ncost := length (iq_costs p); iq_types := map type_of bs;
             iq_box := repeat (ndec 1 (-1)) n; iq_merit := repeat (nofZ 10) (length bs);
             iq_hess := iq_hess p; iq_grad := iq_grad p; iq_mat := iq_mat p;
             iq_rowb := nb (length bs); iq_varb := nb n; iq_slackb := nb ns;
             iq_cconst := [nzero]; iq_kconst := iq_kconst p |}
    else Throws.
  (** setVariables, 143 *)
  Definition iset_variables (p : iqp) (x : list T) : iqp :=
    {| iq_x := x; iq_bnds := iq_bnds p; iq_raw := iq_raw p; iq_costs := iq_costs p; iq_cnts := iq_cnts p;
       iq_n := iq_n p; iq_ncnt := iq_ncnt p; iq_ncost := iq_ncost p; iq_types := iq_types p; iq_box := iq_box p; iq_merit := iq_merit p;
       iq_hess := iq_hess p; iq_grad := iq_grad p; iq_mat := iq_mat p; iq_rowb := iq_rowb p; iq_varb := iq_varb p; iq_slackb := iq_slackb p;
       iq_cconst := iq_cconst p; iq_kconst := iq_kconst p |}.

  (** updateHessian, 168-240: one cost set (sets without entries are skipped), then all of them; the
      entries below 1e-7 become zeros in [iconvexify], 231-232 *)
  Definition ithr (v : T) : T := if nleb (ndec 1 (-7)) (nabs v) then v else nzero.
  Definition no_entries (j : list (srow T)) : bool := (list_sum (map (@length _) j) =? 0)%nat.
  Definition hess_step (n : nat) (c : comp T) (h : list (list T)) : res (list (list T)) :=
    if no_entries (cm_jac c) then Val h
    else if (length (cm_jac c) <=? length (cm_coeffs c))%nat then
      let bw := scale_rows (map (fun w => sq (nabs w)) (cm_coeffs c)) (cm_jac c) in
      Val (mzip h (map (fun i => map (fun k => vsum (map (fun r => coeff r i * coeff r k) bw)) (seq 0 n)) (seq 0 n)))
    else Bad.
  Fixpoint hess_loop (n : nat) (cs : list (comp T)) (h : list (list T)) : res (list (list T)) :=
    match cs with [] => Val h | c :: cs => rbind (hess_step n c h) (hess_loop n cs) end.
  (** updateGradient, 242-286: the costs *)
  Definition grad_step (n : nat) (c : comp T) (g : list T) : res (list T) :=
    if no_entries (cm_jac c) then Val g
    else rbind (bounds_errors (cm_bounds c) (cm_vals c)) (fun e =>
         if ((length (cm_coeffs c) =? length e) && (length (cm_jac c) =? length e))%nat%bool
         then Val (vzip nadd g (map (fun v => nofZ 2 * v) (col_sums n (scale_rows (vzip nmul (cm_coeffs c) e) (cm_jac c)))))
         else Bad).
  Fixpoint cost_loop (n : nat) (cs : list (comp T)) (g : list T) : res (list T) :=
    match cs with [] => Val g | c :: cs => rbind (grad_step n c g) (cost_loop n cs) end.
  Definition mat_vec (h : list (list T)) (x : list T) : list T := map (fun r => vdot r x) h.
  (** slack entries, 291-312: one merit coefficient per row *)
  Fixpoint slack_grad (ts : list btype) (ms : list T) : res (list T) :=
    match ts, ms with
    | [], _ => Val []
    | t :: ts, m :: ms => match @slack_signs T NT t with
                          | Some s => rbind (slack_grad ts ms) (fun g => Val (map (fun _ => m) s ++ g))
                          | None => Throws
                          end
    | _ :: _, [] => Bad
    end.
  (** linearizeConstraints, 315-371: the constraint rows; [off] is the column after the last slack *)
  Fixpoint slack_rows (ts : list btype) (js : list (srow T)) (off : nat) : res (list (srow T)) :=
    match ts, js with
    | [], [] => Val []
    | t :: ts, j :: js => match @slack_signs T NT t with
                          | Some s => rbind (slack_rows ts js (off + length s)) (fun r => Val ((thr_row j ++ combine (seq off (length s)) s) :: r))
                          | None => Throws
                          end
    | _, _ => Bad
    end.
  Definition block (n : nat) (rows : list (srow T)) : list (srow T) := map (leftcols n) rows.
  (** updateNLPVariableBounds, 454-479 *)
  Definition ibox_row (b : bnd T) (x bi : T) : bnd T :=
    let y := match b_hi b with Some u => nmin x u | None => x end in
    let xi := match b_lo b with Some l => nmax y l | None => y end in
    {| b_lo := Some match b_lo b with Some l => nmax (xi - bi) l | None => xi - bi end;
       b_hi := Some match b_hi b with Some u => nmin (xi + bi) u | None => xi + bi end |}.
  Definition ibox_rows (bs : list (bnd T)) (x box : list T) : list (bnd T) :=
    map (fun t => ibox_row (fst (fst t)) (snd (fst t)) (snd t)) (combine (combine bs x) box).
  Definition iupdate_box (p : iqp) (box : list T) : res iqp :=
    if ((length (iq_bnds p) =? iq_n p) && (length (iq_x p) =? iq_n p) && (length box =? iq_n p) && (length (iq_varb p) =? iq_n p))%nat%bool then
      Val {| iq_x := iq_x p; iq_bnds := iq_bnds p; iq_raw := iq_raw p; iq_costs := iq_costs p; iq_cnts := iq_cnts p;
             iq_n := iq_n p; iq_ncnt := iq_ncnt p; iq_ncost := iq_ncost p; iq_types := iq_types p; iq_box := box; iq_merit := iq_merit p;
             iq_hess := iq_hess p; iq_grad := iq_grad p; iq_mat := iq_mat p; iq_rowb := iq_rowb p;
             iq_varb := ibox_rows (iq_bnds p) (iq_x p) box; iq_slackb := iq_slackb p;
             iq_cconst := iq_cconst p; iq_kconst := iq_kconst p |}
    else Bad.
  (** scaleBoxSize, 556-560, setBoxSize, 562-567, setConstraintMeritCoeff, 569-573 *)
  Definition iscale_box (p : iqp) (k : T) : res iqp := iupdate_box p (map (fun b => b * k) (iq_box p)).
  Definition iset_box (p : iqp) (box : list T) : res iqp := iupdate_box p box.
  Definition iset_merit (p : iqp) (m : list T) : res iqp :=
    if (length m =? iq_ncnt p)%nat then
      Val {| iq_x := iq_x p; iq_bnds := iq_bnds p; iq_raw := iq_raw p; iq_costs := iq_costs p; iq_cnts := iq_cnts p;
             iq_n := iq_n p; iq_ncnt := iq_ncnt p; iq_ncost := iq_ncost p; iq_types := iq_types p; iq_box := iq_box p; iq_merit := m;
             iq_hess := iq_hess p; iq_grad := iq_grad p; iq_mat := iq_mat p; iq_rowb := iq_rowb p; iq_varb := iq_varb p; iq_slackb := iq_slackb p;
             iq_cconst := iq_cconst p; iq_kconst := iq_kconst p |}
    else Bad.

  (** the costs of nlp_: SquaredCost and AbsoluteCost are built with unit weights, 65, 71 *)
  Definition cost_value (x : list T) (kc : penalty * source) : res T :=
    let c := snd kc x in let w := repeat none_ (cm_rows c) in
    match fst kc with
    | PAbsolute => absolute_cost w (cm_vals c) (cm_bounds c)
    | _ => squared_cost w (cm_vals c) (cm_bounds c)
    end.
  Definition cost_values (p : iqp) : res (list T) := mapr (cost_value (iq_x p)) (iq_costs p).

  (** convexify(), 146-166, with 373-507 *)
  Definition iconvexify (p : iqp) : res iqp :=
    let n := iq_n p in let x := iq_x p in let raw := map (fun t => t x) (iq_raw p) in
    if ((length x =? n) && (iq_ncnt p =? length (iq_types p)))%nat%bool then
      rbind (hess_loop n raw (repeat (repeat nzero n) n)) (fun h =>
      rbind (cost_loop n raw (repeat nzero n)) (fun g =>
      let h := map (map ithr) h in
      let g := vzip nsub g (map (fun v => nofZ 2 * v) (mat_vec h x)) in
      rbind (slack_grad (iq_types p) (iq_merit p)) (fun sg =>
      rbind (ct_jacobian (istack p)) (fun jac =>
      rbind (slack_rows (iq_types p) jac n) (fun rows =>
      rbind (cost_values p) (fun cv =>
      rbind (ct_values (istack p)) (fun kv =>
      let kconst := vzip nsub kv (jac_mul (block n rows) x) in
      let bs := ct_bounds (istack p) in
      if ((length kv =? iq_ncnt p) && (length bs =? iq_ncnt p))%nat%bool then
        iupdate_box {| iq_x := x; iq_bnds := iq_bnds p; iq_raw := iq_raw p; iq_costs := iq_costs p; iq_cnts := iq_cnts p;
             iq_n := n; iq_ncnt := iq_ncnt p; iq_ncost := iq_ncost p; iq_types := iq_types p; iq_box := iq_box p; iq_merit := iq_merit p;
             iq_hess := h; iq_grad := g ++ sg; iq_mat := rows ++ map (fun i => [(i, none_)]) (seq 0 (n + length sg));
             iq_rowb := map (fun bc => shift (fst bc) (snd bc)) (combine bs kconst);
             iq_varb := iq_varb p; iq_slackb := repeat {| b_lo := Some nzero; b_hi := None |} (length sg);
             iq_cconst := if (iq_ncost p =? 0)%nat then iq_cconst p else map (fun c => c - vdot x (mat_vec h x) - vdot x g) cv;
             iq_kconst := kconst |} (iq_box p)
      else Bad)))))))
    else Bad.

  (** evaluateConvexCosts, 514-523; evaluateTotalConvexCost, 509-512 *)
  Definition ieval_costs (p : iqp) (z : list T) : list T :=
    if (iq_ncost p =? 0)%nat then []
    else let v := firstn (iq_n p) z in
         map (fun a => a + vdot v (firstn (iq_n p) (iq_grad p)) + vdot v (mat_vec (iq_hess p) v)) (iq_cconst p).
  Definition ieval_total (p : iqp) (z : list T) : T := vsum (ieval_costs p z).
  (** getExactCosts, 527-533; getTotalExactCost, 525, is Problem::evaluateCostFunction (IfoptModel) *)
  Definition iexact_costs (p : iqp) : res (list T) := cost_values p.
  Definition iexact_total (p : iqp) : res T :=
    match iq_costs p with [] => Val nzero | _ => rbind (cost_values p) (fun vs => match vs with v :: _ => Val v | [] => Bad end) end.
  (** evaluateConvexConstraintViolations, 535-545, getExactConstraintViolations, 547-554 *)
  Definition ieval_violations (p : iqp) (z : list T) : res (list T) :=
    bounds_violations (ct_bounds (istack p))
      (vzip nadd (iq_kconst p) (jac_mul (block (iq_n p) (firstn (iq_ncnt p) (iq_mat p))) (firstn (iq_n p) z))).
  Definition iexact_violations (p : iqp) : res (list T) :=
    rbind (ct_values (istack p)) (fun v => bounds_violations (ct_bounds (istack p)) v).
End IfoptQp.
Arguments source : clear implicits.
Arguments iqp : clear implicits.
