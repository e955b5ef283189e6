(** * Model of problem construction in trajopt

    Sources: trajopt/src/utils.cpp, trajopt/src/problem_description.cpp,
    trajopt/include/trajopt/problem_description.hpp, trajopt_sco/src/modeling.cpp 174-197.

    Simplifications: names are numbers; the kinematics and the environment are represented by the joint
    limits and the current joint values; a variable is its index; the Cartesian error functions are not
    evaluated here, a hatched term records what it is applied to.  [Thrown] is an exception, [Assert] a
    failed assertion (Eigen's index and size checks included). *)
From Coq Require Import ZArith String List Bool Arith.
From Verif Require Import Num Common ScoExprModel ModelingModel ArrayModel TrajCostModel CollisionModel.
Import ListNotations.

Inductive run (A : Type) := Done (a : A) | Thrown | Assert.
Arguments Done {A}. Arguments Thrown {A}. Arguments Assert {A}.
Definition rdo {A B} (r : run A) (f : A -> run B) : run B := match r with Done a => f a | Thrown => Thrown | Assert => Assert end.
Definition lift {A} (o : option A) : run A := match o with Some a => Done a | None => Thrown end.
Fixpoint rmap {A B} (f : A -> run B) (l : list A) : run (list B) :=
  match l with [] => Done [] | a :: l => rdo (f a) (fun b => rdo (rmap f l) (fun bs => Done (b :: bs))) end.

(** ** Joint subsets, utils.cpp 91-153 *)
Section Subset.
  Context {A : Type}.
  (** std::find and std::distance *)
  Fixpoint find_name (names : list nat) (n : nat) : option nat :=
    match names with
    | [] => None
    | m :: names => if m =? n then Some 0 else option_map S (find_name names n)
    end.
  Definition found (names : list nat) (n : nat) : bool := match find_name names n with Some _ => true | None => false end.
  (** isSuperset, 91-104 *)
  Definition is_superset (subset superset : list nat) : bool :=
    forallb (found superset) subset && (length subset <? length superset).
  (** updateFromSubset, 106-127: the result and new_superset_vals afterwards; assigning to an Eigen::Ref of
      another size is an assertion *)
  Fixpoint update_loop (names snames : list nat) (svals new : list A) : run (bool * list A) :=
    match snames with
    | [] => Done (true, new)
    | s :: snames =>
        match find_name names s with
        | None => Done (false, new)
        | Some idx =>
            match svals with
            | [] => Assert
            | v :: svals => if idx <? length new then update_loop names snames svals (put new idx v) else Assert
            end
        end
    end.
  Definition update_from_subset (names : list nat) (vals : list A) (snames : list nat) (svals new : list A) : run (bool * list A) :=
    if length new =? length vals then update_loop names snames svals vals else Assert.
  (** getSubset, 129-153: the result and subset_vals afterwards *)
  Fixpoint get_loop (names : list nat) (vals : list A) (snames : list nat) : run (option (list A)) :=
    match snames with
    | [] => Done (Some [])
    | s :: snames =>
        match find_name names s with
        | None => Done None
        | Some idx =>
            match nth_error vals idx with
            | None => Assert
            | Some v => rdo (get_loop names vals snames) (fun r => Done (option_map (cons v) r))
            end
        end
    end.
  Definition get_subset (names : list nat) (vals : list A) (snames : list nat) (out : list A) : run (bool * list A) :=
    rdo (get_loop names vals snames) (fun r =>
      match r with
      | None => Done (false, out)
      | Some o => if length out =? length o then Done (true, o) else Assert
      end).
End Subset.

(** ** Variables, problem_description.cpp 553-592, utils.cpp 38-81, modeling.cpp 174-197 *)
(** "<prefix>_i_j" (joints: prefix j) and "dt_i" *)
Inductive vname := NCell (prefix : nat) (i j : Z) | NDt (i : Z).
Definition prefix_j : nat := 0.
Section Vars.
  Context {T : Type}.
  (** vars_ with names, lower_bounds_ and upper_bounds_ of OptProb; None is infinite *)
  Definition opt_prob := list (vname * (option T * option T)).
  (** createVariables, modeling.cpp 180-197: the problem and the new variables *)
  Definition create_variables (p : opt_prob) (names : list vname) (lb ub : list (option T)) : run (opt_prob * list nat) :=
    if (length lb =? length names) && (length ub =? length names) then
      Done (p ++ combine names (combine lb ub), seq (length p) (length names))
    else Assert.
  (** TrajOptProb::TrajOptProb, 553-592: the problem and m_traj_vars *)
  Definition traj_prob (n_steps n_dof : Z) (use_time : bool) (limits : list (T * T)) (dt_lower dt_upper : T) : run (opt_prob * array nat) :=
    let names := flat_map (fun i => map (NCell prefix_j i) (range 0 n_dof) ++ (if use_time then [NDt i] else [])) (range 0 n_steps) in
    let vlower := flat_map (fun _ => map (fun l => Some (fst l)) limits ++ (if use_time then [Some dt_lower] else [])) (range 0 n_steps) in
    let vupper := flat_map (fun _ => map (fun l => Some (snd l)) limits ++ (if use_time then [Some dt_upper] else [])) (range 0 n_steps) in
    rdo (create_variables [] names vlower vupper) (fun pv =>
      Done (fst pv, of_data n_steps (n_dof + (if use_time then 1 else 0)) (snd pv))).

  (** AddVarArrays, utils.cpp 38-81: the cells in the order in which they get an index *)
  Definition cell_order (rows : Z) (cols : list Z) : list (nat * Z * Z) :=
    flat_map (fun i => flat_map (fun k => map (fun j => (k, i, j)) (range 0 (nth k cols 0%Z))) (seq 0 (length cols))) (range 0 rows).
  Definition cell_eqb (a b : nat * Z * Z) : bool :=
    match a, b with (k, i, j), (k', i', j') => (k =? k') && (i =? i')%Z && (j =? j')%Z end.
  (** index[k](i, j) *)
  Fixpoint index_from (l : list (nat * Z * Z)) (c : nat * Z * Z) (var_idx : nat) : nat :=
    match l with [] => 0 | d :: l => if cell_eqb d c then var_idx else index_from l c (S var_idx) end.
  Definition add_var_arrays (p : opt_prob) (rows : Z) (cols : list Z) (prefixes : list nat) : run (opt_prob * list (array nat)) :=
    if negb (length cols =? length prefixes) then Assert
    else
      let order := cell_order rows cols in
      let names := map (fun c => match c with (k, i, j) => NCell (nth k prefixes 0) i j end) order in
      rdo (rmap (fun k => lift (resize 0 empty rows (nth k cols 0%Z))) (seq 0 (length cols))) (fun arrs =>
      rdo (create_variables p names (repeat None (length names)) (repeat None (length names))) (fun pv =>
      rdo (rmap (fun ka => lift
             (for_ (range 0 rows) (snd ka) (fun a i =>
              for_ (range 0 (nth (fst ka) cols 0%Z)) a (fun a j =>
                set_at a i j (nth (index_from order (fst ka, i, j) (length p)) (seq 0 (length (fst pv))) 0)))))
           (combine (seq 0 (length cols)) arrs)) (fun arrs =>
      Done (fst pv, arrs)))).
End Vars.
Arguments opt_prob : clear implicits.

(** ** Step ranges of the joint terms, problem_description.cpp 1089-1107 (position), 1208-1224 (velocity),
    1404-1421 (acceleration), 1526-1543 (jerk) *)
Section Ranges.
  Local Open Scope Z_scope.
  Definition hatch_range (o : order) (n first last : Z) : Z * Z :=
    let last := if last <=? -1 then n - 1 else last in
    let back := match o with Pos => 1 | Vel => 2 | Acc => 3 | Jerk => 4 end in
    let first := if n - back <=? first then n - back else first in
    let last := if n - 1 <=? last then n - 1 else last in
    let last := match o with
                | Pos => last
                | Vel => if last =? first then last + 1 else last
                | Acc => if last =? first then last + 2 else last
                | Jerk => if last =? first then last + 4 else last
                end in
    let r := if last <? first then (last, first) else (first, last) in
    match o with
    | Pos => if snd r =? -1 then (fst r, fst r) else r
    | _ => r
    end.
End Ranges.

(** ** Term types, problem_description.hpp 28-57 *)
Definition TT_COST : Z := 1.
Definition TT_CNT : Z := 2.
Definition TT_USE_TIME : Z := 4.
(** static_cast<bool>(a & b) *)
Definition has (a b : Z) : bool := negb (Z.land a b =? 0)%Z.

(** ** Joint terms *)
Section JointTerms.
  Context {T : Type} {NT : Num T}.
  Local Open Scope num_scope.

  (** checkParameterSize, problem_description.cpp 75-89: the parameter afterwards *)
  Definition check_parameter_size (parameter : list T) (expected : nat) (apply_first : bool) : run (list T) :=
    if apply_first && (length parameter =? 1)%nat then Done (repeat (nth 0 parameter nzero) expected)
    else if negb (length parameter =? expected)%nat then Thrown
    else Done parameter.

  (** doubleEquals, vector_ops.hpp 18, and the zero tests of the tolerances, e.g. 1116-1119 *)
  Definition double_equals (x y : T) : bool := nabs (x - y) <? ndec 1 (-5).
  Definition all_zeros (l : list T) : bool := forallb (fun i => double_equals i nzero) l.

  (** JointPosTermInfo, JointVelTermInfo, JointAccTermInfo, JointJerkTermInfo *)
  Record jterm := { jt_type : Z; jt_coeffs : list T; jt_targets : list T; jt_uppers : list T; jt_lowers : list T; jt_first : Z; jt_last : Z }.

  (** what hatch() adds: an object of one of the 16 classes of TrajCostModel with its constructor arguments,
      or a cost/constraint on an error function over the listed variables *)
  Inductive side := SideCost | SideCnt.
  Inductive added :=
  | AddJoint (s : side) (equality : bool) (o : order) (vars : array nat) (coeffs targets uppers lowers : list T) (first last : Z)
  | AddVelTime (s : side) (equality : bool) (j : nat) (target upper lower : T) (vars : list nat) (coeffs : list T).

  (** the constructor throws (TrajCostModel) *)
  Definition constructs (equality : bool) (o : order) (vars : array nat) (c t u l : list T) (first last : Z) : bool :=
    match (if equality then eq_exprs o vars c t first last else ineq_exprs o vars c t u l first last) with Some _ => true | None => false end.

  (** sizes and defaults, e.g. 1083-1090 and 1110-1113 *)
  Definition default_to (l d : list T) : list T := match l with [] => d | _ => l end.
  Definition hatch_params (t : jterm) (n_dof : nat) : run (list T * list T * list T * list T) :=
    rdo (check_parameter_size (default_to (jt_coeffs t) (repeat none_ n_dof)) n_dof true) (fun c =>
    rdo (check_parameter_size (jt_targets t) n_dof true) (fun tg =>
    rdo (check_parameter_size (default_to (jt_uppers t) (repeat nzero n_dof)) n_dof true) (fun u =>
    rdo (check_parameter_size (default_to (jt_lowers t) (repeat nzero n_dof)) n_dof true) (fun l =>
    Done (c, tg, u, l))))).

  (** hatch() of the four joint terms, 1078-1176, 1197-1372, 1393-1493, 1515-1615.  [vars] is
      prob.GetVars(); its last column holds the time variables when the problem has time.
      term_type == (COST | USE_TIME) is tested before term_type & COST, except by JointPosTermInfo, which
      ignores USE_TIME; acceleration and jerk then only log an error.  ~(term_type | ~USE_TIME) is nonzero
      when USE_TIME is not set. *)
  Definition add_joint (s : side) (o : order) (jv : array nat) (p : list T * list T * list T * list T) (first last : Z) : run (list added) :=
    match p with (c, tg, u, l) =>
      let equality := all_zeros u && all_zeros l in
      if constructs equality o jv c tg u l first last then Done [AddJoint s equality o jv c tg u l first last] else Thrown
    end.
  Definition add_vel_time (s : side) (vars jv : array nat) (n_dof : nat) (p : list T * list T * list T * list T) (first last : Z) : run (list added) :=
    match p with (c, tg, u, l) =>
      let equality := all_zeros u && all_zeros l in
      rmap (fun j =>
        rdo (lift (cblock jv first (Z.of_nat j) (last - first + 1)%Z)) (fun jvec =>
        rdo (lift (cblock vars first (r_cols vars - 1)%Z (last - first + 1)%Z)) (fun tvec =>
        Done (AddVelTime s equality j (nth j tg nzero) (nth j u nzero) (nth j l nzero) (jvec ++ tvec)
                (repeat (nth j c nzero) (Z.to_nat (last - first)%Z * 2))))))
        (seq 0 n_dof)
    end.
  Definition hatch_joint (o : order) (t : jterm) (n_dof : nat) (vars : array nat) : run (list added) :=
    let (first, last) := hatch_range o (r_rows vars) (jt_first t) (jt_last t) in
    let ty := jt_type t in
    let no_time := negb (has ty TT_USE_TIME) in
    rdo (hatch_params t n_dof) (fun p =>
    if match o with Vel => negb ((first <? last)%Z && (0 <=? first)%Z) | _ => false end then Assert
    else
    rdo (lift (block 0%nat vars 0 0 (r_rows vars) (Z.of_nat n_dof))) (fun jv =>
    match o with
    | Pos => if has ty TT_COST then add_joint SideCost o jv p first last
             else if has ty TT_CNT then add_joint SideCnt o jv p first last
             else Done []
    | _ => if (ty =? Z.lor TT_COST TT_USE_TIME)%Z then
             match o with Vel => add_vel_time SideCost vars jv n_dof p first last | _ => Done [] end
           else if (ty =? Z.lor TT_CNT TT_USE_TIME)%Z then
             match o with Vel => add_vel_time SideCnt vars jv n_dof p first last | _ => Done [] end
           else if has ty TT_COST && no_time then add_joint SideCost o jv p first last
           else if has ty TT_CNT && no_time then add_joint SideCnt o jv p first last
           else Done []
    end)).
End JointTerms.
Arguments jterm : clear implicits. Arguments added : clear implicits.

(** ** Other terms: the rows of variables they are applied to *)
Section OtherTerms.
  Local Open Scope Z_scope.
  (** GetVarRow(i, 0, n_dof), problem_description.hpp 80 *)
  Definition var_row (vars : array nat) (n_dof i : Z) : option (list nat) := rblock vars i 0 n_dof.

  (** the checks of CartVelTermInfo::fromJson, 997-998 *)
  Definition cart_vel_accepts (n_steps first last : Z) : bool :=
    (0 <=? first) && (first <=? n_steps - 1) && (first <? last) && ((0 <? last) && (last <=? n_steps - 1)).
  (** CartVelTermInfo::hatch, 1011-1057: the variables of each added term *)
  Definition cart_vel_hatch (vars : array nat) (n_dof first last : Z) : option (list (list nat)) :=
    omap (fun i => obnd (var_row vars n_dof i) (fun a => obnd (var_row vars n_dof (i + 1)) (fun b => Some (a ++ b)))) (range first (last - first + 1)).

  (** TotalTimeTermInfo::hatch, 1856-1861: time_vars; a negative count makes the vector constructor throw *)
  Definition total_time_vars (vars : array nat) : option (list nat) :=
    if r_rows vars - 1 <? 0 then None
    else omap (fun i => at_ vars (i + 1) (r_cols vars - 1)) (range 0 (r_rows vars - 1)).

  (** the checks of CollisionTermInfo::fromJson, 1632-1648 *)
  Definition collision_accepts (n_steps first last : Z) (fixed : list Z) : bool :=
    (0 <=? first) && (first <? n_steps) && ((first <=? last) && (last <? n_steps)) &&
    forallb (fun fs => negb ((fs <? first) || (last <? fs))) fixed.
  Inductive ends := FreeFree | FixedFree | FreeFixed | SingleStep.
  Definition mem (l : list Z) (i : Z) : bool := existsb (Z.eqb i) l.
  (** the evaluator type of the segment from i to i+1, 1728-1747 and 1788-1807 *)
  Definition segment_ends (fixed : list Z) (i : Z) : run ends :=
    let current_fixed := mem fixed i in
    let next_fixed := mem fixed (i + 1) in
    if negb current_fixed && negb next_fixed then Done FreeFree
    else if current_fixed then Done FixedFree
    else if next_fixed then Done FreeFixed
    else Thrown.
  (** one cost or constraint: evaluator type, first step, variables of the two rows (one if single) *)
  Record cterm := { ct_ends : ends; ct_step : Z; ct_vars0 : list nat; ct_vars1 : list nat }.
  (** CollisionTermInfo::hatch, 1714-1837; the cost and the constraint branch are the same *)
  Definition collision_hatch (discrete : bool) (vars : array nat) (n_dof first last : Z) (fixed : list Z) : run (list cterm) :=
    if discrete then
      rmap (fun i => rdo (lift (var_row vars n_dof i)) (fun v => Done {| ct_ends := SingleStep; ct_step := i; ct_vars0 := v; ct_vars1 := [] |}))
        (filter (fun i => negb (mem fixed i)) (range first (last - first + 1)))
    else
      rmap (fun i => rdo (segment_ends fixed i) (fun e =>
                     rdo (lift (var_row vars n_dof i)) (fun v0 =>
                     rdo (lift (var_row vars n_dof (i + 1))) (fun v1 =>
                     Done {| ct_ends := e; ct_step := i; ct_vars0 := v0; ct_vars1 := v1 |}))))
        (range first (last - first)).
  (** the variables a term treats as free (CollisionExpressionEvaluatorType) *)
  Definition free_vars (c : cterm) : list nat :=
    match ct_ends c with
    | FreeFree => ct_vars0 c ++ ct_vars1 c
    | FixedFree => ct_vars1 c
    | FreeFixed => ct_vars0 c
    | SingleStep => ct_vars0 c
    end.

  (** UserDefinedTermInfo::hatch, 599-672: steps and variables of the added terms *)
  Definition user_hatch (vars : array nat) (n_dof first last : Z) (fixed : list Z) : option (list (Z * list nat)) :=
    omap (fun s => obnd (var_row vars n_dof s) (fun v => Some (s, v))) (filter (fun s => negb (mem fixed s)) (range first (last - first + 1))).
End OtherTerms.

(** ** ConstructProblem *)
Section Construct.
  Context {T : Type} {NT : Num T}.
  Local Open Scope num_scope.

  (** term_type and getSupportedTypes() *)
  Record tinfo := { ti_type : Z; ti_supported : Z }.
  (** 417-430 and 431-444: one list of terms; the result is whether one uses time *)
  Fixpoint check_terms (kind : Z) (l : list tinfo) : option bool :=
    match l with
    | [] => Some false
    | t :: l =>
        if negb (has (ti_supported t) kind) then None
        else if has (ti_type t) TT_USE_TIME && negb (has (ti_supported t) TT_USE_TIME) then None
        else obnd (check_terms kind l) (fun u => Some (has (ti_type t) TT_USE_TIME || u))
    end.
  (** 415-452 *)
  Definition check_time (costs cnts : list tinfo) (basic_use_time : bool) : option unit :=
    obnd (check_terms TT_COST costs) (fun a => obnd (check_terms TT_CNT cnts) (fun b =>
      let use_time := a || b in
      if use_time && negb basic_use_time then None
      else if negb use_time && basic_use_time then None
      else Some tt)).

  (** generateInitTraj, 310-376.  [start] is the current state; a matrix is its rows and their length *)
  Inductive init := Stationary | JointInterpolated | GivenTraj.
  Record mat := { m_rows : list (list T); m_cols : nat }.
  Definition init_traj (i : init) (start : list T) (data : mat) (n_steps : Z) (use_time : bool) (dt : T) : run mat :=
    let n_dof := length start in
    rdo (match i with
         | Stationary => if (n_steps <? 0)%Z then Assert else Done {| m_rows := repeat start (Z.to_nat n_steps); m_cols := n_dof |}
         | JointInterpolated =>
             let interp end_pos :=
               if (n_steps <? 0)%Z then Assert
               else Done {| m_rows := interp_rows (Z.to_nat n_steps) start end_pos; m_cols := n_dof |} in
             if ((length (m_rows data) =? 1) && (m_cols data =? n_dof))%nat then interp (nth 0 (m_rows data) [])
             else if ((length (m_rows data) =? n_dof) && (m_cols data =? 1))%nat then interp (map (fun r => nth 0 r nzero) (m_rows data))
             else Thrown
         | GivenTraj => Done data
         end) (fun m =>
    Done (if use_time then {| m_rows := map (fun r => r ++ [dt]) (m_rows m); m_cols := m_cols m + 1 |} else m)).

  (** the size check, 460-481 *)
  Definition check_init (m : mat) (n_steps : Z) (n_dof : nat) (use_time : bool) : run mat :=
    if (Z.of_nat (length (m_rows m)) =? n_steps)%Z && (m_cols m =? n_dof + (if use_time then 1 else 0))%nat then Done m else Thrown.

  (** init_traj(i, j): Eigen asserts the indices *)
  Definition mat_at (m : mat) (i j : Z) : run T :=
    if ((0 <=? i) && (i <? Z.of_nat (length (m_rows m))) && (0 <=? j) && (j <? Z.of_nat (m_cols m)))%Z%bool then
      Done (nth (Z.to_nat j) (nth (Z.to_nat i) (m_rows m) []) nzero)
    else Assert.
  (** the two operands of exprSub; their order of evaluation is the compiler's ([rtl]) *)
  Definition operands (rtl : bool) (vars : array nat) (m : mat) (i j : Z) : run (nat * T) :=
    if rtl then rdo (mat_at m i j) (fun a => rdo (lift (at_ vars i j)) (fun v => Done (v, a)))
    else rdo (lift (at_ vars i j)) (fun v => rdo (mat_at m i j) (fun a => Done (v, a))).
  (** the fixed timesteps, 485-506: the EQ constraints added to the model *)
  Definition fix_steps (rtl : bool) (vars : array nat) (m : mat) (n_dof : nat) (use_time : bool) (steps : list Z) : run (list (aff T)) :=
    rdo (rmap (fun t =>
      if (Z.of_nat (length (m_rows m)) <? t)%Z then Thrown
      else if negb (m_cols m =? n_dof + (if use_time then 1 else 0))%nat then Thrown
      else rmap (fun j => rdo (operands rtl vars m t j) (fun va => Done (aff_dec_const (aff_var (fst va)) (snd va)))) (range 0 (Z.of_nat n_dof)))
      steps) (fun l => Done (concat l)).
  (** the fixed joints, 509-530 *)
  Definition fix_dofs (rtl : bool) (vars : array nat) (m : mat) (n_dof : nat) (steps dofs : list Z) : run (list (aff T)) :=
    rdo (rmap (fun d =>
      if (Z.of_nat n_dof <? d)%Z then Thrown
      else rmap (fun i => rdo (operands rtl vars m i d) (fun va => Done (aff_dec (aff_var (fst va)) (aff_const (snd va)))))
             (filter (fun i => negb (mem steps i)) (range 0 (r_rows vars))))
      dofs) (fun l => Done (concat l)).
  (** the constraints ConstructProblem adds for both *)
  Definition fix_all (rtl : bool) (vars : array nat) (m : mat) (n_dof : nat) (use_time : bool) (steps dofs : list Z) : run (list (aff T)) :=
    rdo (fix_steps rtl vars m n_dof use_time steps) (fun a => rdo (fix_dofs rtl vars m n_dof steps dofs) (fun b => Done (a ++ b))).
End Construct.
Arguments mat : clear implicits.

(** ** Members of the "params" object: read by fromJson, and accepted by ensure_only_members *)
Section Json.
  Local Open Scope string_scope.
  Inductive jkind := KDynamicCartPose | KCartPose | KCartVel | KJointPos | KJointVel | KJointAcc | KJointJerk | KCollision | KTotalTime.
  (** childFromJson(params, ..., field): 693-705, 840-852, 993-1000, 1065-1072, 1184-1191, 1380-1387, 1502-1509,
      1626-1690, 1844-1845; [true] when the member is required *)
  Definition pose_reads : list (string * bool) :=
    [("timestep", false); ("pos_coeffs", false); ("rot_coeffs", false); ("source_frame", true); ("target_frame", true);
     ("source_frame_offset_xyz", false); ("source_frame_offset_wxyz", false); ("target_frame_offset_xyz", false);
     ("target_frame_offset_wxyz", false)].
  Definition joint_reads : list (string * bool) :=
    [("targets", true); ("coeffs", false); ("upper_tols", false); ("lower_tols", false); ("first_step", false); ("last_step", false)].
  Definition reads (k : jkind) : list (string * bool) :=
    match k with
    | KDynamicCartPose | KCartPose => pose_reads
    | KCartVel => [("first_step", true); ("last_step", true); ("max_displacement", true); ("link", true)]
    | KJointPos | KJointVel | KJointAcc | KJointJerk => joint_reads
    | KCollision =>
        [("evaluator_type", false); ("first_step", false); ("last_step", false); ("longest_valid_segment_length", false);
         ("safety_margin_buffer", false); ("fixed_steps", false); ("contact_test_type", false); ("coeffs", true); ("dist_pen", true);
         ("pairs", false)]
    | KTotalTime => [("coeff", false); ("limit", false)]
    end.
  (** all_fields *)
  Definition pose_fields : list string :=
    ["timestep"; "pos_coeffs"; "rot_coeffs"; "source_frame"; "target_frame"; "source_frame_offset_xyz"; "source_frame_offset_wxyz";
     "target_frame_offset_xyz"; "target_frame_offset_wxyz"].
  Definition fields (k : jkind) : list string :=
    match k with
    | KDynamicCartPose | KCartPose => pose_fields
    | KCartVel => ["first_step"; "last_step"; "max_displacement"; "link"]
    | KJointPos | KJointJerk => ["coeffs"; "first_step"; "last_step"; "targets"; "lower_tols"; "upper_tols"]
    | KJointVel | KJointAcc => ["coeffs"; "first_step"; "last_step"; "targets"; "lower_tols"; "upper_tols"; "use_time"]
    | KCollision => ["type"; "first_step"; "last_step"; "evaluator_type"; "fixed_steps"; "contact_test_type";
                     "longest_valid_segment_length"; "coeffs"; "dist_pen"; "pairs"]
    | KTotalTime => ["coeff"; "limit"]
    end.
  (** ensure_only_members, 32-52: false when it throws *)
  Definition ensure_only_members (members allowed : list string) : bool :=
    forallb (fun m => existsb (String.eqb m) allowed) members.
  (** fromJson as far as the presence of members goes: a missing required member throws, and so does an
      unknown one *)
  Definition params_accepted (k : jkind) (members : list string) : bool :=
    forallb (fun r => negb (snd r) || existsb (String.eqb (fst r)) members) (reads k) && ensure_only_members members (fields k).
End Json.
