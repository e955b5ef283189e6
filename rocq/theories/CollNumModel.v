(** * Model of the numerically differentiated collision constraints of trajopt_ifopt

    trajopt_ifopt/src/constraints/collision/discrete_collision_numerical_constraint.cpp and
    continuous_collision_numerical_constraint.cpp.

    The evaluator is a parameter: calcCollisions / calcCollisionData clear the data they are given and fill in the
    gradient result sets (CollisionModel).  The data of the last update() is the argument [sets]; the cache in front of
    it is that of CacheModel.  As in CollisionModel a failed assertion is [Undef], an exception [Ok None].
    The zero triplets of a fixed sparsity only add explicit zeros and are left out: a Jacobian is the list of its
    columns for one variable, entry i of a column belonging to row i; rows without a set have no entries. *)
From Coq Require Import List ZArith Bool Arith.
From Verif Require Import Num Common ModelingModel CollisionModel.
Import ListNotations.

Section CollNum.
  Context {T : Type} {NT : Num T}.
  Local Open Scope num_scope.
  Variable lowest : T.

  (** the getter used for values and differences, continuous 134-158 and 201-206; the discrete constraint uses
      getMaxErrorT0, discrete 126 and 164 *)
  Definition num_measure (v0 v1 : bool) : gset T -> outcome (option T) :=
    if negb v0 && negb v1 then getMaxError lowest
    else if negb v0 then getMaxErrorT lowest false
    else getMaxErrorT lowest true.
  Definition num_measure_discrete : gset T -> outcome (option T) := getMaxErrorT lowest false.

  (** calcValues, discrete 110-130, getValues, continuous 122-161; [m] is bounds_.size() *)
  Definition num_values (measure : gset T -> outcome (option T)) (m : nat) (buffer : T) (sets : list (gset T)) : outcome (option (list T)) :=
    obind (gather (map measure (firstn m sets))) (fun o => Ok (option_map (pad m (nopp buffer)) o)).

  (** the predicate of std::find_if, discrete 156-158, continuous 192-194 *)
  Definition same_set (a b : gset T) : bool := paireqb (gs_key b) (gs_key a) && zpaireqb (gs_shape b) (gs_shape a).
  (** one entry, discrete 160-172, continuous 195-221 *)
  Definition num_entry (measure : gset T -> outcome (option T)) (buffer delta : T) (new : list (gset T)) (base : gset T) : outcome (option T) :=
    let after := match find (same_set base) new with
                 | Some it => measure it
                 | None => Ok (Some (nopp none_ * buffer))
                 end in
    obind after (fun a => match a with None => Ok None | Some a =>
    obind (measure base) (fun b => match b with None => Ok None | Some b => Ok (Some ((a - b) / delta)) end) end).
  (** the loop over the joints of one variable, discrete 149-175, continuous 183-226: [q] is its value, [eval] the
      evaluation at a perturbed value *)
  Definition num_columns (measure : gset T -> outcome (option T)) (eval : list T -> list (gset T)) (m : nat) (buffer delta : T)
      (q : list T) (sets : list (gset T)) : outcome (option (list (list T))) :=
    match sets with
    | [] => Ok (Some [])
    | _ => gather (map (fun j => gather (map (num_entry measure buffer delta (eval (upd q j (nth j q nzero + delta)))) (firstn m sets)))
             (seq 0 (length q)))
    end.

  (** DiscreteCollisionNumericalConstraint::calcJacobianBlock, 138-176 *)
  Definition num_discrete_jac (eval : list T -> list (gset T)) (m : nat) (buffer delta : T) (q : list T) (sets : list (gset T)) :=
    num_columns num_measure_discrete eval m buffer delta q sets.
  (** ContinuousCollisionNumericalConstraint::getJacobian, 166-229: the columns of both variables; the perturbed value
      of either is passed as the first state, 187-188 *)
  Definition num_continuous_jac (v0 v1 : bool) (eval : list T -> list T -> list (gset T)) (m : nat) (buffer delta : T)
      (q0 q1 : list T) (sets : list (gset T)) : outcome (option (list (list T) * list (list T))) :=
    obind (num_columns (num_measure v0 v1) (fun jv => eval jv q1) m buffer delta q0 sets) (fun a =>
    match a with None => Ok None | Some a =>
    obind (num_columns (num_measure v0 v1) (fun jv => eval jv q1) m buffer delta q1 sets) (fun b =>
    Ok (option_map (pair a) b)) end).

  (** DiscreteCollisionNumericalConstraint, 42-63: [size] is the size of the variable, [None] a null pointer, which is
      dereferenced; the result is (rows_, bounds_.size()) *)
  Definition num_discrete_new (size : option nat) (max_cnt : Z) : outcome (option (nat * nat)) :=
    match size with
    | None | Some 0%nat => Undef
    | Some (S _) => if (max_cnt <? 1)%Z then Ok None else Ok (Some (Z.to_nat max_cnt, Z.to_nat max_cnt))
    end.
  (** ContinuousCollisionNumericalConstraint, 41-74 *)
  Definition num_continuous_new (size0 size1 : option nat) (fixed0 fixed1 : bool) (max_cnt : Z) : outcome (option (nat * nat)) :=
    match size0, size1 with
    | None, None => Ok None
    | None, Some _ => Undef
    | Some 0%nat, _ => Ok None
    | Some _, None => Undef
    | Some n0, Some n1 =>
        if negb (n0 =? n1)%nat then Ok None
        else if fixed0 && fixed1 then Ok None
        else if (max_cnt <? 1)%Z then Ok None
        else Ok (Some (Z.to_nat max_cnt, Z.to_nat max_cnt))
    end.

  (** setBounds, discrete 132-136, continuous 234-238: asserts one bound; rows_ is kept *)
  Definition num_set_bounds (st : nat * nat) (n_bounds : nat) : outcome (nat * nat) :=
    if (n_bounds =? 1)%nat then Ok (fst st, n_bounds) else Undef.
End CollNum.
