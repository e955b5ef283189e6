(** * Function costs with a full Hessian

    Sources: trajopt_sco/src/num_diff.cpp 92-104 (calcGradHess), trajopt_sco/src/modeling_utils.cpp 74-114 (CostFromFunc::convex with
    full_hessian_).

    A matrix is the list of its rows.  Eigen's SelfAdjointEigenSolver is an argument: a function from the matrix to the pairs of
    eigenvalues and eigenvectors. *)
From Coq Require Import List ZArith Bool Arith.
From Verif Require Import Num Common ScoExprModel ModelingModel.
Import ListNotations.
Local Open Scope num_scope.

Section Hess.
  Context {T : Type} {NT : Num T}.

  Definition tab (n : nat) (f : nat -> nat -> T) : list (list T) := map (fun i => map (f i) (seq 0 n)) (seq 0 n).
  Definition at2 (m : list (list T)) (i j : nat) : T := nth j (nth i m []) nzero.

  (** calcGradHess, num_diff.cpp 92-104 *)
  Definition grad_hess (f : list T -> T) (x : list T) (eps : T) : T * list T * list (list T) :=
    let cols := forward_jac_cols (fun z => forward_grad f z eps) x eps in
    (f x, forward_grad f x eps, tab (length x) (fun i j => (at2 cols j i + at2 cols i j) / nofZ 2)).

  (** pos_hess, modeling_utils.cpp 81-89 *)
  Definition pos_hess (n : nat) (es : list (T * list T)) : list (list T) :=
    fold_left (fun p e => if fst e >? nzero then tab n (fun i j => at2 p i j + fst e * nth i (snd e) nzero * nth j (snd e) nzero) else p)
      es (tab n (fun _ _ => nzero)).

  (** the expression, 91-113 *)
  Definition func_cost_full (val : T) (grad : list T) (p : list (list T)) (x : list T) (vs : list nat) : quad T :=
    let n := length x in
    let px := map (fun row => vdot row x) p in
    let ijs := flat_map (fun i => (i, i) :: map (pair i) (seq (S i) (n - S i))) (seq 0 n) in
    {| q_aff := {| a_const := val - vdot grad x + ndec 5 (-1) * vdot x px;
                   a_coeffs := map (fun p => fst p - snd p) (combine grad px); a_vars := vs |};
       q_coeffs := map (fun ij => if (fst ij =? snd ij)%nat then at2 p (fst ij) (snd ij) / nofZ 2 else at2 p (fst ij) (snd ij)) ijs;
       q_vars1 := map (fun ij => nth (fst ij) vs 0%nat) ijs; q_vars2 := map (fun ij => nth (snd ij) vs 0%nat) ijs |}.

  (** CostFromFunc::convex(x, model), 54-119, with full_hessian_ *)
  Definition full_convex (solver : list (list T) -> list (T * list T)) (f : list T -> T) (eps : T) (x : list T) (vs : list nat) : quad T :=
    let xe := get_vec x vs in
    let '(val, grad, hess) := grad_hess f xe eps in
    func_cost_full val grad (pos_hess (length xe) (solver hess)) xe vs.
End Hess.
