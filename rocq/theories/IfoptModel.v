(** * Model of the trajopt_ifopt core: bounds, composites, problems, costs

    Sources: trajopt_ifopt/src/core/{bounds,composite,problem,cost_term}.cpp,
    trajopt_ifopt/src/utils/ifopt_utils.cpp, trajopt_ifopt/src/costs/{squared,absolute}_cost.cpp.

    Simplifications: a bound that [isFinite] rejects (infinite or of magnitude 1e20 and more) is
    [None]; a sparse matrix (RowMajor) is the list of its rows, a row is the list of its entries
    (column, value) in storage order.  [Bad] is a failed assertion or undefined behaviour,
    [Throws] an exception. *)
From Coq Require Import List ZArith Bool Arith.
From Verif Require Import Num.
Import ListNotations.
Local Open Scope num_scope.

Inductive res (A : Type) := Val (a : A) | Throws | Bad.
Arguments Val {A}. Arguments Throws {A}. Arguments Bad {A}.
Definition rbind {A B} (r : res A) (f : A -> res B) : res B :=
  match r with Val a => f a | Throws => Throws | Bad => Bad end.

Inductive btype := Unbounded | Equality | LowerBound | UpperBound | RangeBound.
Inductive mode := StackRows | SumToScalar.

Section Ifopt.
  Context {T : Type} {NT : Num T}.

  (** entries (column, value) of a sparse row *)
  Local Notation srow := (list (nat * T)).
  (** row times vector; an out-of-range column is undefined in C++ and excluded by hypotheses *)
  Definition srow_dot (r : srow) (x : list T) : T := vsum (map (fun p => snd p * nth (fst p) x nzero) r).
  Definition jac_mul (j : list srow) (x : list T) : list T := map (fun r => srow_dot r x) j.

  (** ** Bounds, bounds.cpp 34-87 *)
  Record bnd := { b_lo : option T; b_hi : option T }.
  Definition type_of (b : bnd) : btype :=
    match b_lo b, b_hi b with
    | None, None => Unbounded
    | Some l, Some u => if nabs (u - l) <? ndec 1 (-8) then Equality else RangeBound
    | Some _, None => LowerBound
    | None, Some _ => UpperBound
    end.
  Definition shift (b : bnd) (s : T) : bnd :=
    {| b_lo := option_map (fun l => l - s) (b_lo b); b_hi := option_map (fun u => u - s) (b_hi b) |}.

  (** ** ifopt_utils.cpp *)
  Definition lt_lo (x : T) (b : bnd) : bool := match b_lo b with Some l => x <? l | None => false end.
  Definition gt_hi (x : T) (b : bnd) : bool := match b_hi b with Some u => u <? x | None => false end.
  Definition lo_or (b : bnd) (x : T) : T := match b_lo b with Some l => l | None => x end.
  Definition hi_or (b : bnd) (x : T) : T := match b_hi b with Some u => u | None => x end.
  (** calcBoundsErrors, 97-120, one entry *)
  Definition bound_error (b : bnd) (x : T) : T :=
    if lt_lo x b then x - lo_or b x else if gt_hi x b then x - hi_or b x else nzero.
  (** calcBoundsViolations, 122-145, one entry *)
  Definition bound_viol (b : bnd) (x : T) : T :=
    if lt_lo x b then nabs (x - lo_or b x) else if gt_hi x b then nabs (x - hi_or b x) else nzero.
  (** getClosestValidPoint, 81-95, one entry: cwiseMax(lower).cwiseMin(upper) *)
  Definition closest (b : bnd) (x : T) : T :=
    let y := match b_lo b with Some l => nmax x l | None => x end in
    match b_hi b with Some u => nmin y u | None => y end.

  Definition sized {A} (f : bnd -> T -> A) (bs : list bnd) (xs : list T) : res (list A) :=
    if (length xs =? length bs)%nat then Val (map (fun p => f (fst p) (snd p)) (combine bs xs)) else Bad.
  Definition bounds_errors := sized bound_error.
  Definition bounds_violations := sized bound_viol.
  Definition closest_valid_point := sized closest.

  (** interpolate, 59-79 *)
  Definition vadd (a b : list T) : list T := map (fun p => fst p + snd p) (combine a b).
  Fixpoint interp_loop (n : nat) (running delta : list T) : list (list T) :=
    match n with O => [] | S n => running :: interp_loop n (vadd running delta) delta end.
  Definition interpolate (start stop : list T) (steps : nat) : res (list (list T)) :=
    if ((length start =? length stop)%nat && (2 <=? steps)%nat)%bool then
      let delta := map (fun p => (snd p - fst p) / nofZ (Z.of_nat (steps - 1))) (combine start stop) in
      Val (interp_loop steps start delta)
    else Bad.

  (** ** Differentiable components, at the current variable values
      (component.h; [cm_rows] is getRows()) *)
  Record comp := { cm_rows : nat; cm_vals : list T; cm_coeffs : list T; cm_jac : list srow; cm_bounds : list bnd }.

  (** CompositeDifferentiable, composite.cpp: [ct_rows] is rows_, maintained by addComponent *)
  Record composite := { ct_mode : mode; ct_rows : nat; ct_comps : list comp }.
  Definition ct_new (m : mode) : composite := {| ct_mode := m; ct_rows := 0; ct_comps := [] |}.
  (** addComponent, 43-50 *)
  Definition ct_add (c : composite) (p : comp) : composite :=
    {| ct_mode := ct_mode c; ct_rows := ct_rows c + cm_rows p; ct_comps := ct_comps c ++ [p] |}.
  Definition ct_build (m : mode) (ps : list comp) : composite := fold_left ct_add ps (ct_new m).

  (** g.middleRows(row, n) += v: the block must lie inside g, and v must have n entries *)
  Definition add_block (g : list T) (row n : nat) (v : list T) : res (list T) :=
    if ((row + n <=? length g)%nat && (length v =? n)%nat)%bool
    then Val (firstn row g ++ map (fun p => fst p + snd p) (combine (firstn n (skipn row g)) v) ++ skipn (row + n) g)
    else Bad.
  (** loop of getValues, 94-106, and getCoefficients, 108-120 *)
  Fixpoint stack (m : mode) (get : comp -> list T) (ps : list comp) (row : nat) (g : list T) : res (list T) :=
    match ps with
    | [] => Val g
    | p :: ps => rbind (add_block g row (cm_rows p) (get p)) (fun g =>
        stack m get ps (match m with StackRows => (row + cm_rows p)%nat | SumToScalar => row end) g)
    end.
  Definition ct_values (c : composite) : res (list T) :=
    stack (ct_mode c) cm_vals (ct_comps c) 0 (repeat nzero (ct_rows c)).
  Definition ct_coeffs (c : composite) : res (list T) :=
    stack (ct_mode c) cm_coeffs (ct_comps c) 0 (repeat nzero (ct_rows c)).

  (** triplets (row, column, value) of a Jacobian placed at [row] *)
  Definition triplet := (nat * nat * T)%type.
  Definition jac_triplets (row : nat) (j : list srow) : list triplet :=
    flat_map (fun kr => map (fun p => (row + fst kr, fst p, snd p)%nat) (snd kr)) (combine (seq 0 (length j)) j).
  Fixpoint stack_jac (m : mode) (ps : list comp) (row : nat) : list triplet :=
    match ps with
    | [] => []
    | p :: ps => jac_triplets row (cm_jac p) ++
        stack_jac m ps (match m with StackRows => (row + cm_rows p)%nat | SumToScalar => row end)
    end.
  (** getJacobian, 122-147: setFromTriplets adds up duplicates; a triplet outside the matrix is
      undefined behaviour *)
  Definition row_entries (ts : list triplet) (r : nat) : srow :=
    map (fun t => (snd (fst t), snd t)) (filter (fun t => (fst (fst t) =? r)%nat) ts).
  Definition ct_jacobian (c : composite) : res (list srow) :=
    let ts := stack_jac (ct_mode c) (ct_comps c) 0 in
    if forallb (fun t => (fst (fst t) <? ct_rows c)%nat) ts
    then Val (map (row_entries ts) (seq 0 (ct_rows c))) else Bad.
  (** getBounds, 149-160 *)
  Definition ct_bounds (c : composite) : list bnd := flat_map cm_bounds (ct_comps c).
  (** update() of a composite that is not dynamic, 72-92: asserts that the number of rows is unchanged *)
  Definition ct_update (c : composite) (ps : list comp) : res composite :=
    if (list_sum (map cm_rows ps) =? ct_rows c)%nat
    then Val {| ct_mode := ct_mode c; ct_rows := ct_rows c; ct_comps := ps |} else Bad.

  (** ** Problem, problem.cpp 34-130: costs_ is a row-stacking composite *)
  Definition problem_costs (ps : list comp) : composite := ct_build StackRows ps.
  (** evaluateCostFunction, 69-76 *)
  Definition evaluate_cost (ps : list comp) : res T :=
    let c := problem_costs ps in
    if (0 <? ct_rows c)%nat
    then rbind (ct_values c) (fun g => match g with a :: _ => Val a | [] => Bad end) else Val nzero.
  (** evaluateCostFunctionGradient without finite differences, 78-109, as a row *)
  Definition evaluate_cost_gradient (ps : list comp) : res srow :=
    let c := problem_costs ps in
    if (0 <? ct_rows c)%nat
    then rbind (ct_jacobian c) (fun j => match j with r :: _ => Val r | [] => Bad end) else Val [].

  (** ** SquaredCost, squared_cost.cpp 38-59, and AbsoluteCost, absolute_cost.cpp 38-59; [w] are the
      constructor's weights, of which the absolute values are kept *)
  Definition squared_cost (w vals : list T) (bs : list bnd) : res T :=
    rbind (bounds_errors bs vals) (fun e =>
      if (length w =? length e)%nat
      then Val (vsum (map (fun p => nabs (fst p) * (snd p * snd p)) (combine w e))) else Bad).
  Definition absolute_cost (w vals : list T) (bs : list bnd) : res T :=
    rbind (bounds_violations bs vals) (fun e =>
      if (length w =? length e)%nat then Val (vdot (map nabs w) e) else Bad).

  (** SquaredCost::getJacobian, squared_cost.cpp 63-100: rows scaled by 2 w e, column sums (dense) *)
  Definition scale_rows (ks : list T) (j : list srow) : list srow :=
    map (fun p => map (fun cv => (fst cv, snd cv * fst p)) (snd p)) (combine ks j).
  Definition col_sums (n : nat) (j : list srow) : list T :=
    map (fun c => fold_left (fun s cv => if (fst cv =? c)%nat then s + snd cv else s) (concat j) nzero) (seq 0 n).
  Definition squared_gradient (n : nat) (w vals : list T) (bs : list bnd) (j : list srow) : res (list T) :=
    rbind (bounds_errors bs vals) (fun e =>
      if ((length w =? length e)%nat && (length j =? length e)%nat)%bool
      then Val (col_sums n (scale_rows (map (fun p => nofZ 2 * nabs (fst p) * snd p) (combine w e)) j)) else Bad).
  (** AbsoluteCost::getJacobian, absolute_cost.cpp 63-93 *)
  Definition sign_coeff (w e : T) : T :=
    if nabs e <? ndec 1 (-12) then nzero else if e >? nzero then w else nopp w.
  Definition absolute_gradient (n : nat) (w vals : list T) (bs : list bnd) (j : list srow) : res (list T) :=
    rbind (bounds_errors bs vals) (fun e =>
      if ((length w =? length e)%nat && (length j =? length e)%nat)%bool
      then Val (col_sums n (scale_rows (map (fun p => sign_coeff (nabs (fst p)) (snd p)) (combine w e)) j)) else Bad).

  (** ** calcNumericalConstraintGradient(variables, constraint_set, epsilon), ifopt_utils.cpp 212-258,
      for a constraint set computing [g] with [nb] bounds.  The result is the Jacobian (dense, column by
      column; no columns when nothing is computed) and the variable values left behind.  [x_new] is the
      working copy of the loop, [i] the variables still to be disturbed. *)
  Fixpoint set_at (x : list T) (i : nat) (v : T) : list T :=
    match x, i with [], _ => [] | _ :: r, O => v :: r | a :: r, S i => a :: set_at r i v end.
  Fixpoint grad_loop (g : list T -> list T) (x g0 : list T) (eps : T) (is : list nat) (x_new : list T) : list (list T) :=
    match is with
    | [] => []
    | i :: is =>
        let x1 := set_at x_new i (nth i x nzero + eps) in
        map (fun p => (snd p - fst p) / eps) (combine g0 (g x1)) ::
        grad_loop g x g0 eps is (set_at x1 i (nth i x nzero))
    end.
  Definition numeric_gradient (m nb : nat) (g : list T -> list T) (x : list T) (eps : T) : list (list T) * list T :=
    if ((m =? 0)%nat || (length x =? 0)%nat || (nb =? 0)%nat)%bool then ([], x)
    else (grad_loop g x (g x) eps (seq 0 (length x)) x, x).
End Ifopt.
Notation srow T := (list (nat * T)).
Arguments bnd : clear implicits.
Arguments comp : clear implicits.
Arguments composite : clear implicits.
Arguments triplet : clear implicits.
