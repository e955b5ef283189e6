(** * Model of the Gurobi backend

    Source: trajopt_sco/src/gurobi_interface.cpp (GurobiModel), with vars2inds, cnts2inds and simplify2 of
    trajopt_sco/src/solver_interface.cpp 17-62.

    As in BackendModel.v a VarRep (CntRep) is an entry of a heap and a Var (Cnt) its position there; a Cnt whose pointer is
    null is [None].  What is Gurobi's own is the record [grb] with the functions [grb_...]; they state how its manual
    describes the C interface: changes are queued and carried out by GRBupdatemodel and GRBoptimize; until then NUMVARS
    and the test of index arguments go by the model as of the last time, and all indices in queued changes, deletions
    included, refer to it; a call that fails changes nothing.  Queued additions are kept at the end of the same lists as
    what is already there ([g_ncols], [g_nrows]: how much Gurobi counts already), queued changes of attributes are
    written at once (the code never reads them back), queued deletions are kept as lists of indices.

    Simplifications: names, mutexes, the environment, log and file output are left out; there is one model; the
    solver is a parameter (its status and its point); Gurobi's dropping of the solution by an update is left out;
    [var.var_rep = nullptr] in update() is left out as in BackendModel.v; optimizeFeasRelax is left out (unused). *)
From Coq Require Import List ZArith Bool Arith.
From Verif Require Import Num Common ScoExprModel EigenModel BackendModel.
Import ListNotations.
Local Open Scope num_scope.

(** abort() of ENSURE_SUCCESS, a failed assert, and undefined behaviour *)
Inductive gout (A : Type) := GOk (a : A) | GAbort | GAssert | GUndef.
Arguments GOk {A}. Arguments GAbort {A}. Arguments GAssert {A}. Arguments GUndef {A}.
Definition gbind {A B} (m : gout A) (f : A -> gout B) : gout B :=
  match m with GOk a => f a | GAbort => GAbort | GAssert => GAssert | GUndef => GUndef end.

Definition mem (i : nat) (l : list nat) : bool := existsb (Nat.eqb i) l.

Section Gurobi.
  Context {T : Type} {NT : Num T}.

  (** ** Gurobi *)
  Record gcol := { gc_lo : T; gc_hi : T; gc_obj : T }.
  (** [gr_terms] . x <= [gr_rhs], or = when not [gr_ineq] *)
  Record grow := { gr_terms : list (nat * T); gr_ineq : bool; gr_rhs : T }.
  (** [gq_lin] . x + [gq_quad] <= [gq_rhs] *)
  Record gqrow := { gq_lin : list (nat * T); gq_quad : list (nat * nat * T); gq_rhs : T }.
  Record grb := {
    g_cols : list gcol; g_ncols : nat; g_delv : list nat;
    g_rows : list grow; g_nrows : nat; g_delc : list nat;
    g_qrows : list gqrow; g_q : list (nat * nat * T); g_con : T; g_x : list T }.
  Definition no_col : gcol := {| gc_lo := nzero; gc_hi := nzero; gc_obj := nzero |}.
  Definition empty_grb : grb :=
    {| g_cols := []; g_ncols := 0; g_delv := []; g_rows := []; g_nrows := 0; g_delc := []; g_qrows := []; g_q := [];
       g_con := nzero; g_x := [] |}.

  (** what remains of a list when the positions in [D] are deleted, and where position [j] ends up *)
  Fixpoint keep {A} (D : list nat) (k : nat) (l : list A) : list A :=
    match l with [] => [] | a :: r => if mem k D then keep D (S k) r else a :: keep D (S k) r end.
  Definition newidx (D : list nat) (j : nat) : nat := length (filter (fun i => negb (mem i D)) (seq 0 j)).
  (** deleting variables deletes their terms *)
  Definition renum1 (D : list nat) (l : list (nat * T)) : list (nat * T) :=
    map (fun t => (newidx D (fst t), snd t)) (filter (fun t => negb (mem (fst t) D)) l).
  Definition renum2 (D : list nat) (l : list (nat * nat * T)) : list (nat * nat * T) :=
    map (fun t => (newidx D (fst (fst t)), newidx D (snd (fst t)), snd t))
      (filter (fun t => (negb (mem (fst (fst t)) D) && negb (mem (snd (fst t)) D))%bool) l).
  Definition grb_flush (g : grb) : grb :=
    let D := g_delv g in
    let cols := keep D 0 (g_cols g) in
    let rows := keep (g_delc g) 0 (g_rows g) in
    {| g_cols := cols; g_ncols := length cols; g_delv := [];
       g_rows := map (fun r => {| gr_terms := renum1 D (gr_terms r); gr_ineq := gr_ineq r; gr_rhs := gr_rhs r |}) rows;
       g_nrows := length rows; g_delc := [];
       g_qrows := map (fun r => {| gq_lin := renum1 D (gq_lin r); gq_quad := renum2 D (gq_quad r); gq_rhs := gq_rhs r |}) (g_qrows g);
       g_q := renum2 D (g_q g); g_con := g_con g; g_x := g_x g |}.
  Definition known (g : grb) (inds : list nat) : bool := forallb (fun i => (i <? g_ncols g)%nat) inds.

  Definition grb_with_cols (g : grb) cols : grb :=
    {| g_cols := cols; g_ncols := g_ncols g; g_delv := g_delv g; g_rows := g_rows g; g_nrows := g_nrows g;
       g_delc := g_delc g; g_qrows := g_qrows g; g_q := g_q g; g_con := g_con g; g_x := g_x g |}.
  Definition grb_with_obj (g : grb) q con : grb :=
    {| g_cols := g_cols g; g_ncols := g_ncols g; g_delv := g_delv g; g_rows := g_rows g; g_nrows := g_nrows g;
       g_delc := g_delc g; g_qrows := g_qrows g; g_q := q; g_con := con; g_x := g_x g |}.
  Definition grb_with_x (g : grb) x : grb :=
    {| g_cols := g_cols g; g_ncols := g_ncols g; g_delv := g_delv g; g_rows := g_rows g; g_nrows := g_nrows g;
       g_delc := g_delc g; g_qrows := g_qrows g; g_q := g_q g; g_con := g_con g; g_x := x |}.
  (** GRBaddvar *)
  Definition grb_addvar (g : grb) (lo hi : T) : grb :=
    grb_with_cols g (g_cols g ++ [{| gc_lo := lo; gc_hi := hi; gc_obj := nzero |}]).
  (** GRBaddconstr; [None] is the error return *)
  Definition grb_addconstr (g : grb) (inds : list nat) (vals : list T) (ineq : bool) (rhs : T) : option grb :=
    if known g inds then
      Some {| g_cols := g_cols g; g_ncols := g_ncols g; g_delv := g_delv g;
              g_rows := g_rows g ++ [{| gr_terms := combine inds vals; gr_ineq := ineq; gr_rhs := rhs |}];
              g_nrows := g_nrows g; g_delc := g_delc g; g_qrows := g_qrows g; g_q := g_q g; g_con := g_con g; g_x := g_x g |}
    else None.
  (** GRBaddqconstr *)
  Definition grb_addqconstr (g : grb) (linds : list nat) (lvals : list T) (i1 i2 : list nat) (vals : list T) (rhs : T) : option grb :=
    if (known g linds && known g i1 && known g i2)%bool then
      Some {| g_cols := g_cols g; g_ncols := g_ncols g; g_delv := g_delv g; g_rows := g_rows g;
              g_nrows := g_nrows g; g_delc := g_delc g;
              g_qrows := g_qrows g ++ [{| gq_lin := combine linds lvals; gq_quad := combine (combine i1 i2) vals; gq_rhs := rhs |}];
              g_q := g_q g; g_con := g_con g; g_x := g_x g |}
    else None.
  (** GRBdelvars, GRBdelconstrs *)
  Definition grb_delvars (g : grb) (inds : list nat) : option grb :=
    if known g inds then
      Some {| g_cols := g_cols g; g_ncols := g_ncols g; g_delv := g_delv g ++ inds; g_rows := g_rows g; g_nrows := g_nrows g;
              g_delc := g_delc g; g_qrows := g_qrows g; g_q := g_q g; g_con := g_con g; g_x := g_x g |}
    else None.
  Definition grb_delconstrs (g : grb) (inds : list nat) : option grb :=
    if forallb (fun i => (i <? g_nrows g)%nat) inds then
      Some {| g_cols := g_cols g; g_ncols := g_ncols g; g_delv := g_delv g; g_rows := g_rows g; g_nrows := g_nrows g;
              g_delc := g_delc g ++ inds; g_qrows := g_qrows g; g_q := g_q g; g_con := g_con g; g_x := g_x g |}
    else None.
  (** GRBsetdblattrlist for LB, UB: one element after the other; GRBsetdblattrarray for Obj *)
  Definition set_lo (v : T) (c : gcol) : gcol := {| gc_lo := v; gc_hi := gc_hi c; gc_obj := gc_obj c |}.
  Definition set_hi (v : T) (c : gcol) : gcol := {| gc_lo := gc_lo c; gc_hi := v; gc_obj := gc_obj c |}.
  Definition set_obj (v : T) (c : gcol) : gcol := {| gc_lo := gc_lo c; gc_hi := gc_hi c; gc_obj := v |}.
  Fixpoint at_inds (f : T -> gcol -> gcol) (inds : list nat) (vals : list T) (cols : list gcol) : list gcol :=
    match inds, vals with
    | i :: inds, v :: vals => at_inds f inds vals (set_nth cols i (f v (nth i cols no_col)))
    | _, _ => cols
    end.
  Definition grb_setlist (f : T -> gcol -> gcol) (g : grb) (inds : list nat) (vals : list T) : option grb :=
    if known g inds then Some (grb_with_cols g (at_inds f inds vals (g_cols g))) else None.
  (** GRBaddqpterms *)
  Definition grb_addqpterms (g : grb) (i1 i2 : list nat) (vals : list T) : option grb :=
    if (known g i1 && known g i2)%bool
    then Some (grb_with_obj g (g_q g ++ combine (combine i1 i2) vals) (g_con g)) else None.
  (** GRBgetdblattrlist for X *)
  Definition grb_getx (g : grb) (inds : list nat) : option (list T) :=
    if (known g inds && forallb (fun i => (i <? length (g_x g))%nat) inds)%bool
    then Some (map (fun i => nth i (g_x g) nzero) inds) else None.

  (** ENSURE_SUCCESS, 49-58 *)
  Definition ensure {A} (r : option A) : gout A := match r with Some a => GOk a | None => GAbort end.

  (** ** GurobiModel: m_vars, m_cnts, m_model and the heaps *)
  Record gmodel := { gm_vreps : list rep; gm_vars : list nat; gm_creps : list rep; gm_cnts : list nat; gm_grb : grb }.
  (** the constructor, 66-77 *)
  Definition empty_gmodel : gmodel := {| gm_vreps := []; gm_vars := []; gm_creps := []; gm_cnts := []; gm_grb := empty_grb |}.
  Definition with_grb (s : gmodel) (g : grb) : gmodel :=
    {| gm_vreps := gm_vreps s; gm_vars := gm_vars s; gm_creps := gm_creps s; gm_cnts := gm_cnts s; gm_grb := g |}.
  Definition with_vreps (s : gmodel) reps : gmodel :=
    {| gm_vreps := reps; gm_vars := gm_vars s; gm_creps := gm_creps s; gm_cnts := gm_cnts s; gm_grb := gm_grb s |}.
  Definition with_creps (s : gmodel) reps : gmodel :=
    {| gm_vreps := gm_vreps s; gm_vars := gm_vars s; gm_creps := reps; gm_cnts := gm_cnts s; gm_grb := gm_grb s |}.
  (** vars2inds, solver_interface.cpp 24-29 *)
  Definition ginds (s : gmodel) (vars : list nat) : list nat := map (fun id => r_index (nth id (gm_vreps s) no_rep)) vars.
  (** cnts2inds, 38-43 *)
  Definition gcinds (s : gmodel) (cnts : list nat) : list nat := map (fun id => r_index (nth id (gm_creps s) no_rep)) cnts.

  (** addVar, 79-94.  The first overload passes -GRB_INFINITY and GRB_INFINITY.  The new Var is position [length gm_vreps]. *)
  Definition g_add_var (s : gmodel) (lo hi : T) : gmodel :=
    {| gm_vreps := gm_vreps s ++ [{| r_index := length (gm_vars s); r_removed := false |}];
       gm_vars := gm_vars s ++ [length (gm_vreps s)]; gm_creps := gm_creps s; gm_cnts := gm_cnts s;
       gm_grb := grb_addvar (gm_grb s) lo hi |}.
  (** addEqCnt 96-113, addIneqCnt 114-131; the new Cnt is position [length gm_creps] *)
  Definition g_add_cnt (s : gmodel) (ineq : bool) (e : aff T) : gout gmodel :=
    let (inds, vals) := simplify2 (ginds s (a_vars e)) (a_coeffs e) in
    gbind (ensure (grb_addconstr (gm_grb s) inds vals ineq (nopp (a_const e)))) (fun g =>
    GOk {| gm_vreps := gm_vreps s; gm_vars := gm_vars s;
           gm_creps := gm_creps s ++ [{| r_index := length (gm_cnts s); r_removed := false |}];
           gm_cnts := gm_cnts s ++ [length (gm_creps s)]; gm_grb := g |}).
  (** addIneqCnt for quadratic expressions, 132-155; the Cnt returned is [Cnt()] *)
  Definition g_add_quad_cnt (s : gmodel) (q : quad T) : gout (gmodel * option nat) :=
    gbind (ensure (grb_addqconstr (gm_grb s) (ginds s (a_vars (q_aff q))) (a_coeffs (q_aff q))
                     (ginds s (q_vars1 q)) (ginds s (q_vars2 q)) (q_coeffs q) (nopp (a_const (q_aff q))))) (fun g =>
    GOk (with_grb s g, None)).
  (** removeVars, 168-176 *)
  Definition g_remove_vars (s : gmodel) (vars : list nat) : gout gmodel :=
    gbind (ensure (grb_delvars (gm_grb s) (ginds s vars))) (fun g =>
    GOk (with_vreps (with_grb s g) (fold_left mark vars (gm_vreps s)))).
  (** removeCnts, 178-186; cnts2inds follows a null pointer *)
  Fixpoint deref (cnts : list (option nat)) : option (list nat) :=
    match cnts with
    | [] => Some []
    | None :: _ => None
    | Some c :: r => match deref r with Some r => Some (c :: r) | None => None end
    end.
  Definition g_remove_cnts (s : gmodel) (cnts : list (option nat)) : gout gmodel :=
    match deref cnts with
    | None => GUndef
    | Some cnts =>
        gbind (ensure (grb_delconstrs (gm_grb s) (gcinds s cnts))) (fun g =>
        GOk (with_creps (with_grb s g) (fold_left mark cnts (gm_creps s))))
    end.
  (** setVarBounds, 196-205 *)
  Definition g_set_bounds (s : gmodel) (vars : list nat) (lower upper : list T) : gout gmodel :=
    if negb ((length vars =? length lower)%nat && (length vars =? length upper)%nat) then GAssert else
    gbind (ensure (grb_setlist set_lo (gm_grb s) (ginds s vars) lower)) (fun g =>
    gbind (ensure (grb_setlist set_hi g (ginds s vars) upper)) (fun g => GOk (with_grb s g))).
  (** getVarValues, 216-224 *)
  Definition g_get_values (s : gmodel) (vars : list nat) : gout (list T) := ensure (grb_getx (gm_grb s) (ginds s vars)).
  (** optimize, 226-244: [x] is the point at which Gurobi stops *)
  Definition g_optimize (s : gmodel) (x : list T) : gmodel := with_grb s (grb_with_x (grb_flush (gm_grb s)) x).
  (** the loop of setObjective(AffExpr), 262-266: obj[index] += coeff; [None] is a write past the end *)
  Fixpoint g_obj (inds : list nat) (coeffs : list T) (obj : list T) : option (list T) :=
    match inds, coeffs with
    | i :: inds, c :: coeffs =>
        if (i <? length obj)%nat then g_obj inds coeffs (set_nth obj i (nth i obj nzero + c)) else None
    | _, _ => Some obj
    end.
  (** setObjective(AffExpr), 254-269 *)
  Definition g_set_aff (s : gmodel) (e : aff T) : gout gmodel :=
    let g := grb_with_obj (gm_grb s) [] (g_con (gm_grb s)) in
    let nvars := g_ncols g in
    if negb (nvars =? length (gm_vars s))%nat then GAssert else
    match g_obj (ginds s (a_vars e)) (a_coeffs e) (repeat nzero nvars) with
    | None => GUndef
    | Some obj =>
        gbind (ensure (grb_setlist set_obj g (seq 0 nvars) obj)) (fun g =>
        GOk (with_grb s (grb_with_obj g (g_q g) (a_const e))))
    end.
  (** setObjective(QuadExpr), 271-283; the return value of GRBaddqpterms is not looked at *)
  Definition g_set_quad (s : gmodel) (q : quad T) : gout gmodel :=
    gbind (g_set_aff s (q_aff q)) (fun s =>
    match grb_addqpterms (gm_grb s) (ginds s (q_vars1 q)) (ginds s (q_vars2 q)) (q_coeffs q) with
    | Some g => GOk (with_grb s g)
    | None => GOk s
    end).
  (** update, 286-324.  The loops are those of BackendModel.v without the parallel vectors. *)
  Definition g_update (s : gmodel) : gmodel :=
    let '(vr, vs, _, _) := compact (gm_vreps s) (gm_vars s) (gm_vars s) (gm_vars s) 0%nat 0%nat in
    let '(cr, cs, _, _) := compact (gm_creps s) (gm_cnts s) (gm_cnts s) (gm_cnts s) 0%nat 0%nat in
    {| gm_vreps := vr; gm_vars := vs; gm_creps := cr; gm_cnts := cs; gm_grb := grb_flush (gm_grb s) |}.
End Gurobi.
Arguments gcol : clear implicits.
Arguments grow : clear implicits.
Arguments gqrow : clear implicits.
Arguments grb : clear implicits.
Arguments gmodel : clear implicits.
