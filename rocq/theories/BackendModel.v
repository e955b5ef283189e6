(** * Model of the solver backends behind sco::Model

    Sources: trajopt_sco/src/{osqp,qpoases,bpmpd}_interface.cpp, trajopt_sco/src/solver_interface.cpp
    (vars2inds), trajopt_sco/include/trajopt_sco/solver_interface.hpp (VarRep, CntRep).

    A VarRep (CntRep) is shared by every copy of a Var (Cnt); here it is an entry of a heap, and a Var
    is its position in that heap, in order of creation.  Expressions are over those positions and are
    turned into expressions over matrix columns by [resolve], which reads var_rep->index.

    Simplifications: [var.var_rep = nullptr] in update() is left out (those slots of vars_ are
    overwritten or cut off before update() returns and never read); names, mutexes and debug output
    are left out; the solver libraries are not modelled, only the data handed to them.  Creating a
    workspace copies the data; osqp_update_data_mat without index arrays overwrites the stored values
    and keeps the stored pattern. *)
From Coq Require Import List ZArith Bool Arith.
From Verif Require Import Num Common ScoExprModel EigenModel.
Import ListNotations.
Local Open Scope num_scope.

Fixpoint set_nth {A} (l : list A) (i : nat) (v : A) : list A :=
  match l, i with
  | [], _ => []
  | _ :: r, O => v :: r
  | a :: r, S i => a :: set_nth r i v
  end.

(** VarRep, solver_interface.hpp 113-125, and CntRep, 141-152 *)
Record rep := { r_index : nat; r_removed : bool }.
Definition no_rep : rep := {| r_index := 0; r_removed := false |}.

(** The compaction loop of update(): [ids] is vars_ (cnts_), [a] and [b] the two vectors kept
    parallel to it.  osqp 372-418, qpoases 152-198, bpmpd 285-331 (each has it twice). *)
Fixpoint compact_loop {A B} (todo iold inew : nat) (reps : list rep) (ids : list nat) (a : list A) (b : list B)
    (da : A) (db : B) : list rep * list nat * list A * list B :=
  match todo with
  | O => (reps, firstn inew ids, firstn inew a, firstn inew b)
  | S todo =>
      let id := nth iold ids 0%nat in
      if negb (r_removed (nth id reps no_rep)) then
        compact_loop todo (S iold) (S inew)
          (set_nth reps id {| r_index := inew; r_removed := false |})
          (set_nth ids inew id) (set_nth a inew (nth iold a da)) (set_nth b inew (nth iold b db)) da db
      else compact_loop todo (S iold) inew reps ids a b da db
  end.
Definition compact {A B} reps ids (a : list A) (b : list B) da db :=
  compact_loop (length ids) 0 0 reps ids a b da db.

Section Backend.
  Context {T : Type} {NT : Num T}.

  (** vars_, lbs_, ubs_, cnts_, cnt_exprs_, cnt_types_ (true is INEQ), objective_ and the heaps *)
  Record backend := {
    b_vreps : list rep; b_vars : list nat; b_lbs : list T; b_ubs : list T;
    b_creps : list rep; b_cnts : list nat; b_exprs : list (aff T); b_ineq : list bool;
    b_obj : quad T }.
  Definition empty_backend : backend :=
    {| b_vreps := []; b_vars := []; b_lbs := []; b_ubs := []; b_creps := []; b_cnts := []; b_exprs := [];
       b_ineq := []; b_obj := quad_const nzero |}.

  Definition with_vars (s : backend) reps vars lbs ubs : backend :=
    {| b_vreps := reps; b_vars := vars; b_lbs := lbs; b_ubs := ubs; b_creps := b_creps s; b_cnts := b_cnts s;
       b_exprs := b_exprs s; b_ineq := b_ineq s; b_obj := b_obj s |}.
  Definition with_cnts (s : backend) reps cnts exprs ineq : backend :=
    {| b_vreps := b_vreps s; b_vars := b_vars s; b_lbs := b_lbs s; b_ubs := b_ubs s; b_creps := reps; b_cnts := cnts;
       b_exprs := exprs; b_ineq := ineq; b_obj := b_obj s |}.
  Definition with_obj (s : backend) q : backend :=
    {| b_vreps := b_vreps s; b_vars := b_vars s; b_lbs := b_lbs s; b_ubs := b_ubs s; b_creps := b_creps s;
       b_cnts := b_cnts s; b_exprs := b_exprs s; b_ineq := b_ineq s; b_obj := q |}.

  (** the solver's infinity: OSQP_INFINITY and BPMPD_BIG (bpmpd 154) are 1e30, QPOASES_INFTY is 1e20 *)
  Variable inf : T.

  (** addVar: osqp 123-130, qpoases 38-45, bpmpd 238-245.  The new Var is position [length b_vreps]. *)
  Definition add_var (s : backend) : backend :=
    with_vars s (b_vreps s ++ [{| r_index := length (b_vars s); r_removed := false |}])
      (b_vars s ++ [length (b_vreps s)]) (b_lbs s ++ [nopp inf]) (b_ubs s ++ [inf]).
  (** addEqCnt and addIneqCnt: osqp 132-148, qpoases 47-63, bpmpd 246-261 *)
  Definition add_cnt (s : backend) (ineq : bool) (e : aff T) : backend :=
    with_cnts s (b_creps s ++ [{| r_index := length (b_cnts s); r_removed := false |}])
      (b_cnts s ++ [length (b_creps s)]) (b_exprs s ++ [e]) (b_ineq s ++ [ineq]).
  Definition mark (reps : list rep) (id : nat) : list rep :=
    set_nth reps id {| r_index := r_index (nth id reps no_rep); r_removed := true |}.
  (** removeVars, removeCnts: osqp 152-168, qpoases 71-87, bpmpd 267-283 *)
  Definition remove_var (s : backend) (id : nat) : backend :=
    with_vars s (mark (b_vreps s) id) (b_vars s) (b_lbs s) (b_ubs s).
  Definition remove_cnt (s : backend) (id : nat) : backend :=
    with_cnts s (mark (b_creps s) id) (b_cnts s) (b_exprs s) (b_ineq s).
  (** setVarBounds for one variable: osqp 420-428, qpoases 200-208, bpmpd 333-341; [None] is a write
      outside lbs_ (undefined behaviour) *)
  Definition set_bounds (s : backend) (id : nat) (l u : T) : option backend :=
    let i := r_index (nth id (b_vreps s) no_rep) in
    if (i <? length (b_lbs s))%nat
    then Some (with_vars s (b_vreps s) (b_vars s) (set_nth (b_lbs s) i l) (set_nth (b_ubs s) i u)) else None.
  (** update(): osqp 372-418, qpoases 152-198, bpmpd 285-331 *)
  Definition update (s : backend) : backend :=
    let '(vr, vs, lb, ub) := compact (b_vreps s) (b_vars s) (b_lbs s) (b_ubs s) nzero nzero in
    let s := with_vars s vr vs lb ub in
    let '(cr, cs, es, ts) := compact (b_creps s) (b_cnts s) (b_exprs s) (b_ineq s) (aff_const nzero) false in
    with_cnts s cr cs es ts.
  (** setObjective: osqp 616-617, qpoases 262-263, bpmpd 543-544 *)
  Definition set_obj_aff (s : backend) (e : aff T) : backend := with_obj s (with_aff (b_obj s) e).
  Definition set_obj_quad (s : backend) (q : quad T) : backend := with_obj s q.

  (** vars2inds, solver_interface.cpp 16-28 *)
  Definition resolve_var (s : backend) (id : nat) : nat := r_index (nth id (b_vreps s) no_rep).
  Definition resolve (s : backend) (e : aff T) : aff T :=
    {| a_const := a_const e; a_coeffs := a_coeffs e; a_vars := map (resolve_var s) (a_vars e) |}.
  Definition resolve_quad (s : backend) (q : quad T) : quad T :=
    {| q_aff := resolve s (q_aff q); q_coeffs := q_coeffs q;
       q_vars1 := map (resolve_var s) (q_vars1 q); q_vars2 := map (resolve_var s) (q_vars2 q) |}.
  (** getVarValues for one variable: osqp 429-438; [None] is a read outside solution_ *)
  Definition get_value (s : backend) (solution : list T) (id : nat) : option T :=
    nth_error solution (resolve_var s id).

  (** ** OSQP *)
  (** OSQPCscMatrix: dimensions and arrays *)
  Record cscm := { m_rows : nat; m_cols : nat; m_csc : csc T }.
  (** memcmp of the first [k] BYTES of two integer arrays; [sz] is sizeof(OSQPInt), little endian *)
  Fixpoint le_bytes (sz v : nat) : list nat :=
    match sz with O => [] | S sz => (v mod 256)%nat :: le_bytes sz (v / 256) end.
  Fixpoint same_nats (a b : list nat) : bool :=
    match a, b with [], [] => true | x :: a, y :: b => ((x =? y)%nat && same_nats a b)%bool | _, _ => false end.
  Definition memcmp0 (sz : nat) (a b : list nat) (k : nat) : bool :=
    same_nats (firstn k (flat_map (le_bytes sz) a)) (firstn k (flat_map (le_bytes sz) b)).
  (** the sparsity checks, osqp 181-201 and 251-269 *)
  Definition sparsity_equal (sz : nat) (check : bool) (prev : option cscm) (new : cscm) : bool :=
    match prev with
    | Some p =>
        (check && (m_cols p =? m_cols new)%nat && (m_rows p =? m_rows new)%nat
         && (length (c_vals (m_csc p)) =? length (c_vals (m_csc new)))%nat
         && memcmp0 sz (c_ptrs (m_csc p)) (c_ptrs (m_csc new)) (m_cols p + 1)
         && memcmp0 sz (c_rows (m_csc p)) (c_rows (m_csc new)) (length (c_vals (m_csc p))))%bool
    | None => false
    end.

  (** updateObjective, osqp 170-211: P (upper triangle) and q; [None] is the exception of exprToEigen *)
  Definition osqp_objective (s : backend) : outcome (option (cscm * list T)) :=
    let n := length (b_vars s) in
    obind (quad_to_eigen (resolve_quad s (b_obj s)) n true false) (fun r =>
      match r with
      | None => Ok None
      | Some (P, q) => Ok (Some ({| m_rows := n; m_cols := n; m_csc := to_csc (upper P) |}, q))
      end).
  (** updateConstraints, osqp 213-281: A, l and u; one row per constraint, then one per variable *)
  Definition cnt_low (ineq : bool) (v : T) : T := if ineq then nopp inf else v.
  Definition bound_cols (m : nat) (cols : smat T) : smat T :=
    map (fun ic => col_add (m + fst ic)%nat none_ (snd ic)) (combine (seq 0 (length cols)) cols).
  Definition osqp_constraints (s : backend) : outcome (option (cscm * list T * list T)) :=
    let n := length (b_vars s) in let m := length (b_cnts s) in
    obind (affs_to_eigen (map (resolve s) (b_exprs s)) n) (fun r =>
      match r with
      | None => Ok None
      | Some (A, v) =>
          Ok (Some ({| m_rows := m + n; m_cols := n; m_csc := to_csc (bound_cols m A) |},
                    map (fun tv => cnt_low (fst tv) (snd tv)) (combine (b_ineq s) v) ++ map (fun l => nfmax l (nopp inf)) (b_lbs s),
                    v ++ map (fun u => nfmin u inf) (b_ubs s)))
      end).

  (** what OSQP works on *)
  Record wspace := { w_P : cscm; w_q : list T; w_A : cscm; w_l : list T; w_u : list T }.
  (** P_, A_ and osqp_workspace_ *)
  Record osqp := { o_P : option cscm; o_A : option cscm; o_ws : option wspace }.
  (** osqp_update_data_mat with OSQP_NULL index arrays *)
  Definition overwrite (m : cscm) (vals : list T) : cscm :=
    {| m_rows := m_rows m; m_cols := m_cols m;
       m_csc := {| c_rows := c_rows (m_csc m); c_ptrs := c_ptrs (m_csc m);
                   c_vals := vals ++ skipn (length vals) (c_vals (m_csc m)) |} |}.
  (** createOrUpdateSolver, osqp 283-370, called from optimize() after update().  [solved] is the
      status of the last solve, [updating] config_.update_workspace, [warm] settings.warm_starting;
      [ok_vec], [ok_mat], [ok_setup] say whether OSQP accepts the data.  The boolean of the result
      is false when an exception reaches optimize(), which then returns CVX_FAILED.  A failed setup
      leaves no workspace (other errors than the two validation errors leave what OSQP set). *)
  Definition create_or_update (sz : nat) (updating warm solved ok_vec ok_mat ok_setup : bool) (s : backend) (o : osqp)
      : outcome (osqp * bool) :=
    let usable := (match o_ws o with Some _ => true | None => false end && solved)%bool in
    let allow_update := (usable && updating)%bool in
    let allow_warm := (usable && negb updating && warm)%bool in
    obind (osqp_objective s) (fun r =>
      match r with
      | None => Ok (o, false)
      | Some (P, q) =>
          let p_same := sparsity_equal sz (allow_update || allow_warm) (o_P o) P in
          let o := {| o_P := Some P; o_A := o_A o; o_ws := o_ws o |} in
          obind (osqp_constraints s) (fun r =>
            match r with
            | None => Ok (o, false)
            | Some (A, l, u) =>
                let a_same := sparsity_equal sz p_same (o_A o) A in
                let o := {| o_P := Some P; o_A := Some A; o_ws := o_ws o |} in
                match o_ws o with
                | Some w =>
                    if (allow_update && p_same && a_same && ok_vec && ok_mat)%bool
                    then Ok ({| o_P := Some P; o_A := Some A;
                                o_ws := Some {| w_P := overwrite (w_P w) (c_vals (m_csc P)); w_q := q;
                                                w_A := overwrite (w_A w) (c_vals (m_csc A)); w_l := l; w_u := u |} |}, true)
                    else if ok_setup
                    then Ok ({| o_P := Some P; o_A := Some A;
                                o_ws := Some {| w_P := P; w_q := q; w_A := A; w_l := l; w_u := u |} |}, true)
                    else Ok ({| o_P := Some P; o_A := Some A; o_ws := None |}, false)
                | None =>
                    if ok_setup
                    then Ok ({| o_P := Some P; o_A := Some A;
                                o_ws := Some {| w_P := P; w_q := q; w_A := A; w_l := l; w_u := u |} |}, true)
                    else Ok ({| o_P := Some P; o_A := Some A; o_ws := None |}, false)
                end
            end)
      end).

  (** ** qpOASES: H (both triangles), g, A, lb, ub, lbA, ubA.
      updateObjective 89-103, updateConstraints 105-131; lb_ and ub_ are passed as they are (220-260) *)
  Record qpo := { p_H : cscm; p_g : list T; p_A : cscm; p_lb : list T; p_ub : list T; p_lbA : list T; p_ubA : list T }.
  Definition qpoases_data (s : backend) : outcome (option qpo) :=
    let n := length (b_vars s) in let m := length (b_cnts s) in
    obind (quad_to_eigen (resolve_quad s (b_obj s)) n true true) (fun r =>
      match r with
      | None => Ok None
      | Some (H, g) =>
          obind (affs_to_eigen (map (resolve s) (b_exprs s)) n) (fun r =>
            match r with
            | None => Ok None
            | Some (A, v) =>
                Ok (Some {| p_H := {| m_rows := n; m_cols := n; m_csc := to_csc H |}; p_g := g;
                            p_A := {| m_rows := m; m_cols := n; m_csc := to_csc A |}; p_lb := b_lbs s; p_ub := b_ubs s;
                            p_lbA := map (fun tv => cnt_low (fst tv) (snd tv)) (combine (b_ineq s) v); p_ubA := v |})
            end)
      end).

  (** ** BPMPD *)
  (** push_back into the vectors of one variable, bpmpd 399-405 and 427-445; an index outside is
      undefined behaviour *)
  Definition push (t : list (list (nat * T))) (i : nat) (p : nat * T) : list (list (nat * T)) :=
    set_nth t i (nth i t [] ++ [p]).
  Definition simplified (t : list (list (nat * T))) : list (list (nat * T)) :=
    map (fun l => let (i, v) := simplify2 (map fst l) (map snd l) in combine i v) t.
  (** column counts, 1-based row indices and values *)
  Record bcols := { k_cnt : list nat; k_idx : list nat; k_nzs : list T }.
  Definition flatten (t : list (list (nat * T))) : bcols :=
    {| k_cnt := map (@length _) t; k_idx := map S (flat_map (map fst) t); k_nzs := flat_map (map snd) t |}.
  Record bpm := { i_a : bcols; i_q : bcols; i_rhs : list T; i_obj : list T; i_lo : list T; i_hi : list T }.
  (** lines 392-420 *)
  Definition bpmpd_cnt_table (n : nat) (es : list (aff T)) : list (list (nat * T)) :=
    fold_left (fun t ie => fold_left (fun t vc => push t (fst vc) (fst ie, snd vc)) (combine (a_vars (snd ie)) (a_coeffs (snd ie))) t)
      (combine (seq 0 (length es)) es) (repeat [] n).
  (** lines 422-446 *)
  Definition bpmpd_obj_table (n : nat) (q : quad T) : list (list (nat * T)) :=
    fold_left (fun t x => let '(c, (i, j)) := x in
                 if (i <? j)%nat then push t i (j, c) else if (i =? j)%nat then push t i (j, c * nofZ 2) else push t j (i, c))
      (combine (q_coeffs q) (combine (q_vars1 q) (q_vars2 q))) (repeat [] n).
  (** lines 456-459 *)
  Definition bpmpd_linear (n : nat) (e : aff T) : list T :=
    fold_left (fun o vc => set_nth o (fst vc) (nth (fst vc) o nzero + snd vc)) (combine (a_vars e) (a_coeffs e)) (repeat nzero n).
  (** optimize(), bpmpd 355-508 *)
  Definition bpmpd_data (s : backend) : outcome bpm :=
    let n := length (b_vars s) in
    let es := map (resolve s) (b_exprs s) in let q := resolve_quad s (b_obj s) in
    let ok v := forallb (fun i => (i <? n)%nat) v in
    if (forallb (fun e => ok (a_vars e)) es && ok (a_vars (q_aff q)) && ok (q_vars1 q) && ok (q_vars2 q))%bool then
      Ok {| i_a := flatten (simplified (bpmpd_cnt_table n es)); i_q := flatten (simplified (bpmpd_obj_table n q));
            i_rhs := map (fun e => nopp (a_const e)) es; i_obj := bpmpd_linear n (q_aff q);
            i_lo := map (fun l => nfmax l (nopp inf)) (b_lbs s) ++ map (fun t => cnt_low t nzero) (b_ineq s);
            i_hi := map (fun u => nfmin u inf) (b_ubs s) ++ map (fun _ => nzero) (b_ineq s) |}
    else Undef.
End Backend.
Arguments backend : clear implicits.
Arguments cscm : clear implicits.
Arguments wspace : clear implicits.
Arguments osqp : clear implicits.
Arguments qpo : clear implicits.
Arguments bpm : clear implicits.
Arguments bcols : clear implicits.
