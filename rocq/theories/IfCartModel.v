(** * Model of the Cartesian and inverse kinematics constraints of trajopt_ifopt

    trajopt_ifopt/src/constraints/cartesian_position_constraint.cpp, cartesian_line_constraint.cpp,
    inverse_kinematics_constraint.cpp.

    Forward and inverse kinematics, calcJacobian, calcTransformError, calcJacobianTransformErrorDiff, addTwist and
    the quaternion interpolation belong to tesseract and Eigen and are parameters.  A sparse matrix is the list of
    its rows (IfoptModel).  [Bad] is a failed assertion (also Eigen's on an index out of range or on sizes that do
    not match), [Throws] an exception.  Names, reserve() and the cache of transforms are left out: the cache only
    hands the transforms of one call from forward kinematics to its reader. *)
From Coq Require Import ZArith List Bool Arith.
From Verif Require Import Num Common IfoptModel CollisionModel ModelingModel KinModel.
Import ListNotations.

Inductive ptype := TargetActive | SourceActive | BothActive.

Section IfCart.
  Context {T : Type} {NT : Num T}.
  Local Open Scope num_scope.

  (** err[indices_[i]] for all i, position 147-149, line 133-136 *)
  Definition select (indices : list nat) (err : list T) : res (list T) :=
    if forallb (fun i => (i <? length err)%nat) indices then Val (reduced indices err) else Bad.
  (** the loop over the columns, position 293-300, line 170-177; [d] is error_diff_function_ *)
  Fixpoint diff_columns (eps : T) (joint_vals pert : list T) (d : list T -> res (list T)) (i k : nat) : res (list (list T)) :=
    match k with
    | O => Val []
    | S k =>
        let pert1 := upd pert i (el joint_vals i + eps) in
        rbind (d pert1) (fun e =>
        rbind (diff_columns eps joint_vals (upd pert1 i (el joint_vals i)) d (i + 1) k) (fun cs =>
        Val (map (fun v => v / eps) e :: cs)))
    end.
  (** one row of the sparse Jacobian: [n] columns from [index] on, the entry of column j is row [r] of the j-th
      column of the dense matrix *)
  Definition sparse_row (index n : nat) (cols : list (list T)) (r : nat) : res (list (nat * T)) :=
    if ((n <=? length cols)%nat && forallb (fun c => (r <? length c)%nat) (firstn n cols))%bool
    then Val (map (fun j => ((index + j)%nat, el (nth j cols []) r)) (seq 0 n)) else Bad.
  Fixpoint gather_rows {A B} (f : A -> res B) (l : list A) : res (list B) :=
    match l with
    | [] => Val []
    | a :: l => rbind (f a) (fun b => rbind (gather_rows f l) (fun bs => Val (b :: bs)))
    end.
  (** jac0.col(c).tail(3) = (error_diff / eps), position 344 and 357, line 230: assigning to three entries asserts
      that there are three; [g] is the column of the geometric Jacobian *)
  Definition set_tail (eps : T) (g e : list T) : res (list T) :=
    if (length e =? 3)%nat then Val (firstn 3 g ++ map (fun v => v / eps) e) else Bad.

  (** ** CartPosConstraint *)
  (** type_, n_dof_, indices_, coeffs_, bounds_; rows_ is the length of indices_ *)
  Record cartpos := { cp_type : ptype; cp_dof : nat; cp_indices : list nat; cp_coeffs : list T; cp_bounds : list (bnd T) }.
  Definition unbounded : bnd T := {| b_lo := None; b_hi := None |}.
  Definition lower_half (b : bnd T) : bnd T := {| b_lo := b_lo b; b_hi := None |}.
  Definition upper_half (b : bnd T) : bnd T := {| b_lo := None; b_hi := b_hi b |}.
  Definition is_range (b : bnd T) : bool := match type_of b with RangeBound => true | _ => false end.
  (** the rows made from component i, 91-131; [split]: kSplitToTwoInequalities *)
  Definition component_rows (split : bool) (coeffs : list T) (bounds : list (bnd T)) (i : nat) : list (nat * T * bnd T) :=
    if almost_equal (el coeffs i) nzero then []
    else
      let b := nth i bounds unbounded in
      if split && is_range b then [(i, el coeffs i, lower_half b); (i, el coeffs i, upper_half b)]
      else [(i, el coeffs i, b)].
  (** the constructor, 45-136.  [has_*]: manip_->hasLinkName, [*_active]: manip_->isActiveLinkName *)
  Definition cartpos_new (dof : nat) (has_source has_target source_active target_active split : bool)
      (coeffs : list T) (bounds : list (bnd T)) : res cartpos :=
    if (dof =? 0)%nat then Bad
    else if negb has_source then Throws
    else if negb has_target then Throws
    else if negb (length bounds =? 6)%nat then Throws
    else if negb (length coeffs =? 6)%nat then Throws
    else if negb (target_active || source_active) then Throws
    else
      let l := flat_map (component_rows split coeffs bounds) (seq 0 6) in
      Val {| cp_type := if target_active && source_active then BothActive else if target_active then TargetActive else SourceActive;
             cp_dof := dof; cp_indices := map (fun p => fst (fst p)) l; cp_coeffs := map (fun p => snd (fst p)) l;
             cp_bounds := map snd l |}.

  Section Pos.
    Context {Tf : Type}.
    (** the two frames times their offsets as functions of the joint values *)
    Variables source target : list T -> Tf.
    (** calcTransformError(t1, t2) *)
    Variable transform_error : Tf -> Tf -> list T.
    (** calcJacobianTransformErrorDiff(target, source, perturbed source) and the overload (target, perturbed target,
        source, perturbed source) *)
    Variable error_diff : Tf -> Tf -> Tf -> list T.
    Variable error_diff2 : Tf -> Tf -> Tf -> Tf -> list T.
    (** calcJacobian for the active frame after jacobianChangeBase, as columns, 336-337 and 349-350; addTwist *)
    Variable geometric : list T -> list (list T).
    Variable add_twist : Tf -> list T -> T -> Tf.

    (** calcValues, 263-273, with the error functions 142-152, 175-185, 207-217 *)
    Definition cartpos_values (c : cartpos) (q : list T) : res (list T) :=
      select (cp_indices c)
        match cp_type c with
        | TargetActive => transform_error (source q) (target q)
        | _ => transform_error (target q) (source q)
        end.
    (** error_diff_function_, 154-169, 187-202, 219-236 *)
    Definition cartpos_diff (c : cartpos) (q pert : list T) : res (list T) :=
      select (cp_indices c)
        match cp_type c with
        | TargetActive => error_diff (source q) (target q) (target pert)
        | SourceActive => error_diff (target q) (source q) (source pert)
        | BothActive => error_diff2 (target q) (target pert) (source q) (source pert)
        end.
    (** calcJacobianBlock, 281-374; [index] is position_var_->getIndex(), eps is 1e-5 *)
    Definition cartpos_jacobian (numeric : bool) (eps : T) (index : nat) (c : cartpos) (q : list T) : res (list (list (nat * T))) :=
      if numeric || match cp_type c with BothActive => true | _ => false end then
        rbind (diff_columns eps q q (cartpos_diff c q) 0 (length q)) (fun cols =>
        gather_rows (sparse_row index (cp_dof c) cols) (seq 0 (length (cp_indices c))))
      else
        rbind (gather_rows (fun g => set_tail eps g
          match cp_type c with
          | TargetActive => error_diff (source q) (target q) (add_twist (target q) g eps)
          | _ => error_diff (target q) (source q) (add_twist (source q) g eps)
          end) (geometric q)) (fun cols =>
        gather_rows (sparse_row index (cp_dof c) cols) (cp_indices c)).
  End Pos.

  (** ** CartLineConstraint *)
  Section Line.
    Variable nsqrt : T -> T.
    Context {Rot : Type}.
    (** Quaternion::slerp *)
    Variable slerp : Rot -> T -> Rot -> Rot.
    Definition pose := (list T * Rot)%type.
    (** Eigen's normalized() *)
    Definition normalized (v : list T) : list T :=
      let z := vdot v v in if z >? nzero then map (fun x => x / nsqrt z) v else v.
    (** getLinePoint, 271-308; [o1], [o2] are info_.target_frame_offset1 and 2 *)
    Definition line_point (o1 o2 source t1 t2 : pose) : pose :=
      let d1 := map nabs (vminus (fst source) (fst t1)) in
      let line := vminus (fst t2) (fst t1) in
      let line_norm := normalized line in
      let mag := vdot d1 line_norm in
      (if mag >? none_ then fst o2
       else if mag <? nzero then fst o1
       else vplus (fst o1) (map (fun x => mag * x) line_norm),
       slerp (snd t1) mag (snd t2)).

    (** info_: the offsets and the indices; n_dof_, coeffs_, bounds_ *)
    Record cartline := { cl_dof : nat; cl_o1 : pose; cl_o2 : pose; cl_indices : list nat; cl_coeffs : list T; cl_bounds : list (bnd T) }.
    Definition bound_zero : bnd T := {| b_lo := Some nzero; b_hi := Some nzero |}.
    (** the constructors, 44-73 and 77-94; [same] is offset1.isApprox(offset2) *)
    Definition cartline_new (dof : nat) (has_source has_target same : bool) (o1 o2 : pose) (indices : list nat) (coeffs : list T) : res cartline :=
      if negb has_source then Throws
      else if negb has_target then Throws
      else if same then Throws
      else if (6 <? length indices)%nat then Throws
      else if (length indices =? 0)%nat then Throws
      else if (dof =? 0)%nat then Bad
      else if negb (length coeffs =? length indices)%nat then Throws
      else Val {| cl_dof := dof; cl_o1 := o1; cl_o2 := o2; cl_indices := indices; cl_coeffs := coeffs;
                  cl_bounds := repeat bound_zero (length indices) |}.
    (** setBounds, 148-152 *)
    Definition cartline_set_bounds (c : cartline) (bs : list (bnd T)) : res cartline :=
      if (length bs =? 6)%nat
      then Val {| cl_dof := cl_dof c; cl_o1 := cl_o1 c; cl_o2 := cl_o2 c; cl_indices := cl_indices c; cl_coeffs := cl_coeffs c; cl_bounds := bs |}
      else Bad.

    (** the source frame times its offset, the target frame times its two offsets *)
    Variables source target1 target2 : list T -> pose.
    Variable transform_error : pose -> pose -> list T.
    Variable error_diff2 : pose -> pose -> pose -> pose -> list T.
    Variable geometric : list T -> list (list T).
    Variable add_twist : pose -> list T -> T -> pose.
    Definition nearest (c : cartline) (q : list T) : pose := line_point (cl_o1 c) (cl_o2 c) (source q) (target1 q) (target2 q).
    (** calcValues, 119-139 *)
    Definition cartline_values (c : cartline) (q : list T) : res (list T) :=
      select (cl_indices c) (transform_error (nearest c q) (source q)).
    (** error_diff_function_, 96-116 *)
    Definition cartline_diff (c : cartline) (q pert : list T) : res (list T) :=
      select (cl_indices c) (error_diff2 (nearest c q) (nearest c pert) (source q) (source pert)).
    (** the sparse rows: startVec(i) for i < 6 needs six rows, info_.indices[i] six indices, 179-188 and 238-247 *)
    Definition six_rows (index : nat) (c : cartline) (cols : list (list T)) : res (list (list (nat * T))) :=
      gather_rows (fun i => match nth_error (cl_indices c) i with
                            | Some k => sparse_row index (cl_dof c) cols k
                            | None => Bad
                            end) (seq 0 6).
    (** calcJacobianBlock, 154-250 *)
    Definition cartline_jacobian (numeric : bool) (eps : T) (index : nat) (c : cartline) (q : list T) : res (list (list (nat * T))) :=
      if numeric then rbind (diff_columns eps q q (cartline_diff c q) 0 (length q)) (six_rows index c)
      else
        rbind (gather_rows (fun g =>
          let p := add_twist (source q) g eps in
          set_tail eps g (error_diff2 (nearest c q) (line_point (cl_o1 c) (cl_o2 c) p (target1 q) (target2 q)) (source q) p)) (geometric q))
          (six_rows index c).
  End Line.

  (** ** InverseKinematicsConstraint *)
  Section Ik.
    Variable nsqrt : T -> T.
    (** std::numeric_limits<double>::max() *)
    Variable largest : T.
    (** one solution of the loop of getValues, 87-96: the error and its norm so far *)
    Definition ik_step (q : list T) (st : list T * T) (sol : list T) : list T * T :=
      let cur := vminus sol q in
      if vnorm nsqrt cur <? snd st then (cur, vnorm nsqrt cur) else st.
    (** getValues, 72-98: [ik] is calcInvKin with the working and the tip frame, [target] the target pose;
        [ndebug]: the assertion is not compiled.  tcp_offset of the info is read nowhere *)
    Definition ik_values {Tf} (ndebug : bool) (ik : Tf -> list T -> list (list T)) (tcp_offset target : Tf) (seed q : list T) : res (list T) :=
      let sols := ik target seed in
      if negb ndebug && match sols with [] => true | _ => false end then Bad
      else if negb (forallb (fun s => (length s =? length q)%nat) sols) then Bad
      else Val (fst (fold_left (ik_step q) sols (repeat nzero (length q), largest))).
    (** getJacobian, 113-127 *)
    Definition ik_jacobian (index n : nat) : list (list (nat * T)) := map (fun j => [((index + j)%nat, nopp none_)]) (seq 0 n).
  End Ik.
End IfCart.
Arguments cartpos : clear implicits.
Arguments cartline : clear implicits.
Arguments pose : clear implicits.
