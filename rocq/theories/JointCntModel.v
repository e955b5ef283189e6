(** * Model of the joint constraints of trajopt_ifopt

    Sources: trajopt_ifopt/src/constraints/joint_{position,velocity,acceleration,jerk}_constraint.cpp.

    Simplifications: a size mismatch between targets and variables is only logged by the constructors
    and shows up as [Bad] (an Eigen assertion) when values are computed; reserve() and the names are
    left out.  [insertBack] needs increasing columns within a row (an Eigen assertion). *)
From Coq Require Import List ZArith Bool Arith.
From Verif Require Import Num IfoptModel NodesModel.
Import ListNotations.
Local Open Scope num_scope.

Inductive kind := Vel | Accel | Jerk.

Section JointCnt.
  Context {T : Type} {NT : Num T}.

  (** coeffs_, bounds_, n_dof_ of the three difference constraints; position_vars_ holds the indices
      and the current values *)
  Record jcnt := { jc_kind : kind; jc_dof : nat; jc_vars : list (var T); jc_coeffs : list T; jc_bounds : list (bnd T) }.
  Definition positive (v : T) : bool := nzero <? v.
  Definition at_value (v : T) : bnd T := {| b_lo := Some v; b_hi := Some v |}.
  (** minimum number of positions: velocity 46-47, acceleration 46-47, jerk 46-47 *)
  Definition min_vars (k : kind) : nat := match k with Vel => 2 | Accel => 4 | Jerk => 6 end.
  (** blocks of n_dof_ rows: velocity 40, acceleration 40, jerk 40 *)
  Definition blocks (k : kind) (n : nat) : nat := match k with Vel => n - 1 | _ => n end.
  (** default coefficient: velocity 67, acceleration 67, jerk 67 *)
  Definition default_coeff (k : kind) : T := match k with Vel => nofZ 5 | _ => none_ end.
  (** constructors: velocity 36-88, acceleration 36-88, jerk 36-88 *)
  Definition jcnt_new (k : kind) (targets : list T) (vs : list (var T)) (coeffs : list T) : res jcnt :=
    let dof := length targets in let nb := blocks k (length vs) in
    if (length vs <? min_vars k)%nat then Throws
    else if (dof =? 0)%nat then Bad
    else if negb (forallb positive coeffs) then Throws
    else
      let done cs := Val {| jc_kind := k; jc_dof := dof; jc_vars := vs; jc_coeffs := cs;
                            jc_bounds := concat (repeat (map at_value targets) nb) |} in
      if (length coeffs =? dof)%nat then done (concat (repeat coeffs nb))
      else match coeffs with
           | [] => done (repeat (default_coeff k) (dof * nb))
           | [c] => done (repeat c (dof * nb))
           | _ => Throws
           end.

  (** one entry of getValues(); [q i k] is joint k of position i, [n] the number of positions *)
  (** velocity 90-116 *)
  Definition vel_value (q : nat -> nat -> T) (i k : nat) : T := q (i + 1)%nat k - q i k.
  (** acceleration 90-118 *)
  Definition accel_value (q : nat -> nat -> T) (n i k : nat) : T :=
    if (i <? n - 2)%nat then q (i + 2)%nat k - nofZ 2 * q (i + 1)%nat k + q i k
    else q (i - 2)%nat k - nofZ 2 * q (i - 1)%nat k + q i k.
  (** jerk 90-124 *)
  Definition jerk_value (q : nat -> nat -> T) (n i k : nat) : T :=
    if (i <? n - 3)%nat then nopp (q i k) + nofZ 3 * q (i + 1)%nat k - nofZ 3 * q (i + 2)%nat k + q (i + 3)%nat k
    else q i k - nofZ 3 * q (i - 1)%nat k + nofZ 3 * q (i - 2)%nat k - q (i - 3)%nat k.
  (** one row of getJacobian(); [c i] is the column of the first joint of position i *)
  (** velocity 123-148 *)
  Definition vel_row (c : nat -> nat) (i k : nat) : srow T := [((c i + k)%nat, nopp none_); ((c (i + 1) + k)%nat, none_)].
  (** acceleration 125-173 *)
  Definition accel_row (c : nat -> nat) (n i k : nat) : srow T :=
    if (i <? n - 2)%nat then [((c i + k)%nat, none_); ((c (i + 1) + k)%nat, nopp (nofZ 2)); ((c (i + 2) + k)%nat, none_)]
    else [((c (i - 2) + k)%nat, none_); ((c (i - 1) + k)%nat, nopp (nofZ 2)); ((c i + k)%nat, none_)].
  (** jerk 131-182 *)
  Definition jerk_row (c : nat -> nat) (n i k : nat) : srow T :=
    if (i <? n - 3)%nat
    then [((c i + k)%nat, nopp none_); ((c (i + 1) + k)%nat, nofZ 3); ((c (i + 2) + k)%nat, nopp (nofZ 3)); ((c (i + 3) + k)%nat, none_)]
    else [((c (i - 3) + k)%nat, nopp none_); ((c (i - 2) + k)%nat, nofZ 3); ((c (i - 1) + k)%nat, nopp (nofZ 3)); ((c i + k)%nat, none_)].

  Definition over_blocks {A} (nb dof : nat) (f : nat -> nat -> A) : list A :=
    flat_map (fun i => map (f i) (seq 0 dof)) (seq 0 nb).
  Definition jcnt_values (c : jcnt) : res (list T) :=
    let n := length (jc_vars c) in let dof := jc_dof c in
    let q i k := nth k (nth i (map v_vals (jc_vars c)) []) nzero in
    if forallb (fun v => v_size v =? dof)%nat (jc_vars c) then
      Val (over_blocks (blocks (jc_kind c) n) dof
             match jc_kind c with Vel => vel_value q | Accel => accel_value q n | Jerk => jerk_value q n end)
    else Bad.
  Fixpoint ordered (r : srow T) : bool :=
    match r with
    | a :: (b :: _) as t => ((fst a <? fst b)%nat && ordered t)%bool
    | _ => true
    end.
  Definition jcnt_jacobian (c : jcnt) : res (list (srow T)) :=
    let n := length (jc_vars c) in let dof := jc_dof c in
    let col i := nth i (map v_index (jc_vars c)) 0%nat in
    let rows := over_blocks (blocks (jc_kind c) n) dof
                  match jc_kind c with Vel => vel_row col | Accel => accel_row col n | Jerk => jerk_row col n end in
    if forallb ordered rows then Val rows else Bad.
  (** the variables after setVariables(x) of the variable set that owns them *)
  Definition jcnt_at (x : list T) (c : jcnt) : res jcnt :=
    rbind (vars_set x (jc_vars c)) (fun vs =>
      Val {| jc_kind := jc_kind c; jc_dof := jc_dof c; jc_vars := vs; jc_coeffs := jc_coeffs c; jc_bounds := jc_bounds c |}).

  (** ** JointPosConstraint: rows_ is the number of entries of [jp_index] *)
  Record jpos := { jp_var : var T; jp_index : list nat; jp_coeffs : list T; jp_bounds : list (bnd T) }.
  (** constructor from targets, joint_position_constraint.cpp 36-77 *)
  Definition jpos_target (targets : list T) (v : var T) (coeffs : list T) : res jpos :=
    let dof := length targets in
    if (dof =? 0)%nat then Bad
    else if negb (forallb positive coeffs) then Throws
    else
      let cs := match coeffs with [c] => repeat c dof | _ => coeffs end in
      if negb (length cs =? dof)%nat then Throws
      else Val {| jp_var := v; jp_index := seq 0 dof; jp_coeffs := cs; jp_bounds := map at_value targets |}.
  (** loop 120-139: the coefficients are those given by the caller *)
  Fixpoint split_loop (bs : list (bnd T)) (i : nat) (coeffs : list T) : res (list (bnd T) * list nat * list T) :=
    match bs with
    | [] => Val ([], [], [])
    | b :: bs =>
        match nth_error coeffs i with
        | None => Bad
        | Some c =>
            rbind (split_loop bs (S i) coeffs) (fun r =>
              let '(rb, ri, rc) := r in
              match type_of b with
              | RangeBound => Val ({| b_lo := b_lo b; b_hi := None |} :: {| b_lo := None; b_hi := b_hi b |} :: rb, i :: i :: ri, c :: c :: rc)
              | _ => Val (b :: rb, i :: ri, c :: rc)
              end)
        end
    end.
  (** end of the constructor from bounds, 110-146; [split] is kSplitToTwoInequalities, [cs] is coeffs_ *)
  Definition jpos_finish (bs : list (bnd T)) (v : var T) (coeffs : list T) (split : bool) (cs : list T) : res jpos :=
    if split then rbind (split_loop bs 0 coeffs) (fun r =>
                    Val {| jp_var := v; jp_index := snd (fst r); jp_coeffs := snd r; jp_bounds := fst (fst r) |})
    else Val {| jp_var := v; jp_index := seq 0 (length bs); jp_coeffs := cs; jp_bounds := bs |}.
  (** constructor from bounds, 79-146 *)
  Definition jpos_bounds (bs : list (bnd T)) (v : var T) (coeffs : list T) (split : bool) : res jpos :=
    let dof := length bs in
    if (dof =? 0)%nat then Bad
    else if negb (forallb positive coeffs) then Throws
    else
      match coeffs with
      | [] => jpos_finish bs v coeffs split (repeat none_ dof)
      | [c] => jpos_finish bs v coeffs split (repeat c dof)
      | _ => if (length coeffs =? dof)%nat then jpos_finish bs v coeffs split coeffs else Throws
      end.
  (** getValues, 148-156: an index outside the variable is an Eigen assertion *)
  Definition jpos_values (c : jpos) : res (list T) :=
    if (forallb (fun i => i <? v_size (jp_var c))%nat (jp_index c) && (length (jp_coeffs c) =? length (jp_index c))%nat)%bool
    then Val (map (fun i => nth i (v_vals (jp_var c)) nzero) (jp_index c)) else Bad.
  (** getJacobian, 163-177 *)
  Definition jpos_jacobian (c : jpos) : list (srow T) :=
    map (fun i => [((v_index (jp_var c) + i)%nat, none_)]) (jp_index c).
  Definition jpos_at (x : list T) (c : jpos) : res jpos :=
    rbind (var_set x (jp_var c)) (fun v =>
      Val {| jp_var := v; jp_index := jp_index c; jp_coeffs := jp_coeffs c; jp_bounds := jp_bounds c |}).
End JointCnt.
Arguments jcnt : clear implicits.
Arguments jpos : clear implicits.
