(** * Model of the expression-to-matrix conversion

    Sources: trajopt_sco/src/solver_utils.cpp, trajopt_sco/include/trajopt_sco/solver_utils.hpp,
    trajopt_sco/src/solver_interface.cpp (simplify2).

    An Eigen sparse matrix (column major, compressed) is the list of its columns; a column is a
    list of (row, value) with strictly increasing rows.  Eigen's own operations are modelled by
    their documented meaning: setFromTriplets adds up duplicates (out-of-range triplets are
    undefined behaviour), [a + b] has the union of the patterns, triangularView keeps one half.
    Simplification: std::sort is modelled by a stable sort (the code's order of equal keys is
    unspecified; it only affects the rounding of a sum). *)
From Coq Require Import List ZArith Bool Arith.
From Verif Require Import Num Common ScoExprModel.
Import ListNotations.
Local Open Scope num_scope.

Section Eigen.
  Context {T : Type} {NT : Num T}.

  Local Notation svec := (list (nat * T)).      (* Eigen::SparseVector: increasing indices *)
  Local Notation smat := (list (list (nat * T))). (* Eigen::SparseMatrix: columns *)
  Local Notation triplet := (nat * nat * T)%type. (* row, column, value *)

  (** std::sort by first component *)
  Fixpoint insert_pair (p : nat * T) (l : list (nat * T)) : list (nat * T) :=
    match l with
    | [] => [p]
    | q :: r => if (fst p <? fst q)%nat then p :: l else q :: insert_pair p r
    end.
  Definition sort_pairs (l : list (nat * T)) : list (nat * T) := fold_left (fun acc p => insert_pair p acc) l [].

  (** the accumulation loop, solver_utils.cpp 34-46; [sv] is built in reverse, [None] is
      prev_index = -1 *)
  Fixpoint accumulate (l : list (nat * T)) (prev : option nat) (sv : svec) : svec :=
    match l with
    | [] => rev sv
    | (i, v) :: r =>
        match prev, sv with
        | Some p, (j, w) :: sv' =>
            if (i =? p)%nat then accumulate r (Some i) ((j, w + v) :: sv')
            else accumulate r (Some i) ((i, v) :: sv)
        | _, _ => accumulate r (Some i) ((i, v) :: sv)
        end
    end.

  (** exprToEigen(AffExpr, SparseVector), solver_utils.cpp 12-47; [None] is the exception *)
  Definition aff_to_sparse (e : aff T) (n : nat) : option svec :=
    if forallb (fun v => (v <? n)%nat) (firstn (length (a_coeffs e)) (a_vars e))
    then Some (accumulate
           (sort_pairs (map (fun cv => (snd cv, fst cv))
              (filter (fun cv => negb (fst cv =? nzero)) (combine (a_coeffs e) (a_vars e))))) None [])
    else None.

  Fixpoint sv_get (i : nat) (sv : svec) : T :=
    match sv with [] => nzero | (j, v) :: r => if (i =? j)%nat then v else sv_get i r end.
  (** conversion to a dense vector, line 65 *)
  Definition sv_dense (n : nat) (sv : svec) : list T := map (fun i => sv_get i sv) (seq 0 n).

  (** ** Sparse matrices *)
  Fixpoint col_add (r : nat) (v : T) (col : svec) : svec :=
    match col with
    | [] => [(r, v)]
    | (r', v') :: rest =>
        if (r <? r')%nat then (r, v) :: col
        else if (r =? r')%nat then (r', v' + v) :: rest
        else (r', v') :: col_add r v rest
    end.
  Definition t_row (t : triplet) := fst (fst t).
  Definition t_col (t : triplet) := snd (fst t).
  Definition t_val (t : triplet) := snd t.
  Definition build_col (ts : list triplet) (c : nat) : svec :=
    fold_left (fun acc t => if (t_col t =? c)%nat then col_add (t_row t) (t_val t) acc else acc) ts [].
  Definition set_from_triplets (rows cols : nat) (ts : list triplet) : outcome smat :=
    if forallb (fun t => (t_row t <? rows)%nat && (t_col t <? cols)%nat) ts
    then Ok (map (build_col ts) (seq 0 cols)) else Undef.

  Definition entry (m : smat) (r c : nat) : T := sv_get r (nth c m []).
  Definition to_triplets (m : smat) : list triplet :=
    flat_map (fun ic => map (fun rv => (fst rv, fst ic, snd rv)) (snd ic)) (combine (seq 0 (length m)) m).
  (** transpose of a square matrix *)
  Definition transpose (m : smat) : smat :=
    map (build_col (map (fun t => (t_col t, t_row t, t_val t)) (to_triplets m))) (seq 0 (length m)).
  Definition madd (a b : smat) : smat :=
    map (fun p => fold_left (fun acc rv => col_add (fst rv) (snd rv) acc) (snd p) (fst p)) (combine a b).
  Definition mscale (k : T) (m : smat) : smat := map (map (fun rv => (fst rv, k * snd rv))) m.
  (** triangularView<Upper>() *)
  Definition upper (m : smat) : smat :=
    map (fun ic => filter (fun rv => (fst rv <=? fst ic)%nat) (snd ic)) (combine (seq 0 (length m)) m).

  (** exprToEigen(QuadExpr), solver_utils.cpp 49-109 *)
  Definition quad_triplets (q : quad T) : list triplet :=
    map (fun cv => let '(c, (i, j)) := cv in
           if (i =? j)%nat then (i, j, c) else if (i <? j)%nat then (i, j, c) else (j, i, c))
      (filter (fun cv => negb (fst cv =? nzero)) (combine (q_coeffs q) (combine (q_vars1 q) (q_vars2 q)))).
  Definition quad_to_eigen (q : quad T) (n : nat) (halved force_diag : bool) : outcome (option (smat * list T)) :=
    if negb ((length (q_vars2 q) =? length (q_vars1 q))%nat && (length (q_vars1 q) =? length (q_coeffs q))%nat)
    then Undef
    else
      match aff_to_sparse (q_aff q) n with
      | None => Ok None
      | Some v =>
          let diag := if force_diag then map (fun k => (k, k, nzero)) (seq 0 n) else [] in
          obind (set_from_triplets n n (quad_triplets q ++ diag)) (fun m =>
            let m := madd m (transpose m) in
            let m := if halved then m else mscale (ndec 5 (-1)) m in
            Ok (Some (m, sv_dense n v)))
      end.

  (** exprToEigen(AffExprVector), solver_utils.cpp 111-144 *)
  Definition affs_triplets (es : list (aff T)) : list triplet :=
    flat_map (fun ie => map (fun cv => (fst ie, snd cv, fst cv))
        (filter (fun cv => negb (fst cv =? nzero)) (combine (a_coeffs (snd ie)) (a_vars (snd ie)))))
      (combine (seq 0 (length es)) es).
  Definition affs_to_eigen (es : list (aff T)) (n : nat) : outcome (option (smat * list T)) :=
    if forallb (fun e => forallb (fun v => (v <? n)%nat) (firstn (length (a_coeffs e)) (a_vars e))) es
    then obind (set_from_triplets (length es) n (affs_triplets es)) (fun m =>
           Ok (Some (m, map (fun e => nopp (a_const e)) es)))
    else Ok None.

  (** eigenToCSC, solver_utils.hpp 105-155 *)
  Record csc := { c_rows : list nat; c_ptrs : list nat; c_vals : list T }.
  Fixpoint offsets (start : nat) (m : smat) : list nat :=
    match m with [] => [] | col :: r => start :: offsets (start + length col) r end.
  Definition to_csc (m : smat) : csc :=
    {| c_rows := flat_map (map fst) m; c_vals := flat_map (map snd) m;
       c_ptrs := offsets 0 m ++ [length (flat_map (map fst) m)] |}.

  (** simplify2, solver_interface.cpp 44-62.  The std::map is an association list with
      increasing keys; operator[] default-initialises with 0. *)
  Definition simplify2 (inds : list nat) (vals : list T) : list nat * list T :=
    let m := fold_left (fun acc iv => if negb (snd iv =? nzero)
                                      then (if existsb (fun p => fst p =? fst iv)%nat acc
                                            then col_add (fst iv) (snd iv) acc
                                            else col_add (fst iv) (nzero + snd iv) acc)
                                      else acc)
               (combine inds vals) [] in
    (map fst m, map snd m).
End Eigen.
Notation svec T := (list (nat * T)) (only parsing).
Notation smat T := (list (list (nat * T))) (only parsing).
Arguments csc : clear implicits.
