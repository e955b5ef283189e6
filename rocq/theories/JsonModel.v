(** * Model of reading a problem from JSON

    Code: trajopt/src/json_marshal.cpp, trajopt/include/trajopt/json_marshal.hpp, trajopt/src/problem_description.cpp
    102-308 and the fromJson functions of the terms, trajopt/include/trajopt/problem_description.hpp 60-260.

    A JSON document is a value of [json].  What jsoncpp (not part of /repo) does with one is recollected: asBool, asInt,
    asDouble and asString convert between scalar types and throw for anything else, null counts as zero or as the
    empty text, begin()/end() visit the elements of an array and the values of an object in the order of their names and
    nothing else, size() counts those, isMember() throws unless the value is an object or null.  The exceptions of
    jsoncpp and those of PRINT_AND_THROW are not distinguished (the catch clauses of json_marshal.cpp only replace one
    by the other).  The text jsoncpp makes of a number is a parameter.  Duplicate names in an object do not occur.

    Left out: parsing, logging, callbacks, the environment except for its joint groups. *)
From Coq Require Import ZArith String Ascii List Bool Arith.
From Verif Require Import Num Common.
From Verif Require PipeModel TrajoptModel.
Import ListNotations.
Import TrajoptModel (run, Done, Thrown, Assert, rdo, rmap).

Section Json.
  Context {T : Type} {NT : Num T}.
  Local Open Scope num_scope.
  Variable ntrunc : T -> Z.          (* conversion double -> int *)
  Variable text_int : Z -> string.
  Variable text_real : T -> string.

  Inductive json := JNull | JBool (b : bool) | JInt (z : Z) | JReal (r : T) | JStr (s : string) | JArr (l : list json) | JObj (m : list (string * json)).

  (** ** jsoncpp *)
  Definition int_min : Z := (- 2 ^ 31)%Z.
  Definition int_max : Z := (2 ^ 31 - 1)%Z.
  (** asBool *)
  Definition as_bool (v : json) : run bool :=
    match v with
    | JBool b => Done b
    | JNull => Done false
    | JInt z => Done (negb (z =? 0)%Z)
    | JReal r => Done (negb (r =? nzero) && negb (nisnan r))
    | _ => Thrown
    end.
  (** asInt *)
  Definition as_int (v : json) : run Z :=
    match v with
    | JInt z => if ((int_min <=? z) && (z <=? int_max))%Z then Done z else Thrown
    | JReal r => if (nofZ int_min <=? r) && (r <=? nofZ int_max) then Done (ntrunc r) else Thrown
    | JNull => Done 0%Z
    | JBool b => Done (if b then 1 else 0)%Z
    | _ => Thrown
    end.
  (** asDouble *)
  Definition as_double (v : json) : run T :=
    match v with
    | JInt z => Done (nofZ z)
    | JReal r => Done r
    | JNull => Done nzero
    | JBool b => Done (if b then none_ else nzero)
    | _ => Thrown
    end.
  (** asString *)
  Definition as_string (v : json) : run string :=
    match v with
    | JStr s => Done s
    | JNull => Done ""%string
    | JBool b => Done (if b then "true" else "false")%string
    | JInt z => Done (text_int z)
    | JReal r => Done (text_real r)
    | _ => Thrown
    end.
  (** begin() to end(), size() *)
  Definition elements (v : json) : list json := match v with JArr l => l | JObj m => map snd m | _ => [] end.
  Fixpoint lookup (name : string) (m : list (string * json)) : option json :=
    match m with [] => None | (n, v) :: m => if String.eqb name n then Some v else lookup name m end.
  (** isMember and operator[](name) in one: [Some v] when it is a member *)
  Definition member (name : string) (v : json) : run (option json) :=
    match v with JObj m => Done (lookup name m) | JNull => Done None | _ => Thrown end.
  (** operator[](int) const *)
  Definition at_index (i : nat) (v : json) : run json :=
    match v with JArr l => Done (nth i l JNull) | JNull => Done JNull | _ => Thrown end.

  (** ** json_marshal *)
  (** fromJsonArray, json_marshal.hpp 31-41, also fromJson for vectors, 56-60 *)
  Definition from_array {A} (rd : json -> run A) (v : json) : run (list A) := rmap rd (elements v).
  (** fromJsonArray with a size, 43-54 *)
  Definition from_array_n {A} (rd : json -> run A) (size : Z) (v : json) : run (list A) :=
    if (Z.of_nat (length (elements v)) =? size)%Z then from_array rd v else Thrown.
  (** fromJson for Eigen::Vector3d and Eigen::Vector4d, json_marshal.cpp 58-70 *)
  Definition as_vec3 (v : json) : run (T * T * T) :=
    rdo (from_array_n as_double 3 v) (fun l => match l with [x; y; z] => Done (x, y, z) | _ => Assert end).
  Definition as_vec4 (v : json) : run (T * T * T * T) :=
    rdo (from_array_n as_double 4 v) (fun l => match l with [x; y; z; w] => Done (x, y, z, w) | _ => Assert end).
  (** childFromJson with a default, 62-74, and without, 76-88 *)
  Definition child {A} (rd : json -> run A) (name : string) (df : A) (v : json) : run A :=
    rdo (member name v) (fun o => match o with Some w => rd w | None => Done df end).
  Definition child_req {A} (rd : json -> run A) (name : string) (v : json) : run A :=
    rdo (member name v) (fun o => match o with Some w => rd w | None => Thrown end).
  (** ModelType::fromJson, solver_interface.cpp 247-260: the value *)
  Definition as_solver (v : json) : run nat :=
    rdo (as_string v) (fun s => match PipeModel.of_name s with Some k => Done k | None => Thrown end).

  (** ** Sections of the document *)
  (** BasicInfo, problem_description.hpp 123-158 *)
  Record basic := {
    b_steps : Z; b_manip : string; b_fixed_timesteps : list Z; b_fixed_dofs : list Z; b_solver : nat;
    b_dt_lower : T; b_dt_upper : T; b_time : bool
  }.
  (** readBasicInfo, problem_description.cpp 118-135; [solver] is the value before *)
  Definition read_basic (solver : nat) (v : json) : run basic :=
    rdo (child_req as_int "n_steps" v) (fun n =>
    rdo (child_req as_string "manip" v) (fun m =>
    rdo (child (from_array as_int) "fixed_timesteps" [] v) (fun ft =>
    rdo (child (from_array as_int) "fixed_dofs" [] v) (fun fd =>
    rdo (child as_solver "convex_solver" solver v) (fun s =>
    rdo (child as_double "dt_lower_lim" none_ v) (fun lo =>
    rdo (child as_double "dt_upper_lim" none_ v) (fun up =>
    rdo (child as_bool "use_time" false v) (fun t =>
    if (lo <=? nzero) || (up <? lo) then Thrown
    else Done {| b_steps := n; b_manip := m; b_fixed_timesteps := ft; b_fixed_dofs := fd; b_solver := s;
                 b_dt_lower := lo; b_dt_upper := up; b_time := t |})))))))).

  (** BasicTrustRegionSQPParameters, optimizers.hpp 89-130, without those of logging and threads *)
  Record params := {
    p_improve_ratio_threshold : T; p_min_trust_box_size : T; p_min_approx_improve : T; p_min_approx_improve_frac : T;
    p_max_iter : Z; p_trust_shrink_ratio : T; p_trust_expand_ratio : T; p_cnt_tolerance : T;
    p_max_merit_coeff_increases : T; p_max_qp_solver_failures : Z; p_merit_coeff_increase_ratio : T; p_max_time : T;
    p_initial_merit_error_coeff : T; p_inflate_individually : bool; p_trust_box_size : T
  }.
  (** readOptInfo, 137-160 *)
  Definition read_opt (p : params) (v : json) : run params :=
    rdo (child as_double "improve_ratio_threshold" (p_improve_ratio_threshold p) v) (fun irt =>
    rdo (child as_double "min_trust_box_size" (p_min_trust_box_size p) v) (fun mtb =>
    rdo (child as_double "min_approx_improve" (p_min_approx_improve p) v) (fun mai =>
    rdo (child as_double "min_approx_improve_frac" (p_min_approx_improve_frac p) v) (fun mif =>
    rdo (child as_int "max_iter" (p_max_iter p) v) (fun mi =>
    rdo (child as_double "trust_shrink_ratio" (p_trust_shrink_ratio p) v) (fun tsr =>
    rdo (child as_double "trust_expand_ratio" (p_trust_expand_ratio p) v) (fun ter =>
    rdo (child as_double "cnt_tolerance" (p_cnt_tolerance p) v) (fun ct =>
    rdo (child as_double "max_merit_coeff_increases" (p_max_merit_coeff_increases p) v) (fun mmc =>
    rdo (child as_double "merit_coeff_increase_ratio" (p_merit_coeff_increase_ratio p) v) (fun mcr =>
    rdo (child as_double "max_time" (p_max_time p) v) (fun mt =>
    rdo (child as_double "initial_merit_error_coeff" (p_initial_merit_error_coeff p) v) (fun ime =>
    rdo (child as_bool "inflate_constraints_individually" (p_inflate_individually p) v) (fun ici =>
    rdo (child as_double "trust_box_size" (p_trust_box_size p) v) (fun tbs =>
    Done {| p_improve_ratio_threshold := irt; p_min_trust_box_size := mtb; p_min_approx_improve := mai;
            p_min_approx_improve_frac := mif; p_max_iter := mi; p_trust_shrink_ratio := tsr; p_trust_expand_ratio := ter;
            p_cnt_tolerance := ct; p_max_merit_coeff_increases := mmc; p_max_qp_solver_failures := p_max_qp_solver_failures p;
            p_merit_coeff_increase_ratio := mcr; p_max_time := mt; p_initial_merit_error_coeff := ime;
            p_inflate_individually := ici; p_trust_box_size := tbs |})))))))))))))).
  (** the default values, optimizers.hpp 89-130; [lowest] and [largest] are those of numeric_limits<double> *)
  Definition default_params (lowest largest : T) : params :=
    {| p_improve_ratio_threshold := ndec 25 (-2); p_min_trust_box_size := ndec 1 (-4); p_min_approx_improve := ndec 1 (-4);
       p_min_approx_improve_frac := lowest; p_max_iter := 50; p_trust_shrink_ratio := ndec 1 (-1); p_trust_expand_ratio := ndec 15 (-1);
       p_cnt_tolerance := ndec 1 (-4); p_max_merit_coeff_increases := nofZ 5; p_max_qp_solver_failures := 3;
       p_merit_coeff_increase_ratio := nofZ 10; p_max_time := largest; p_initial_merit_error_coeff := nofZ 10;
       p_inflate_individually := true; p_trust_box_size := ndec 1 (-1) |}.

  (** boost::iequals: equal up to the case of letters *)
  Definition lower_ascii (c : ascii) : ascii :=
    let n := nat_of_ascii c in if ((65 <=? n) && (n <=? 90))%nat then ascii_of_nat (n + 32) else c.
  Fixpoint lower (s : string) : string := match s with EmptyString => EmptyString | String c s => String (lower_ascii c) (lower s) end.
  Definition iequals (a b : string) : bool := String.eqb (lower a) (lower b).

  (** InitInfo, problem_description.hpp 163-188: the type with its data; the endpoint is stored as a column *)
  Record init_info := { i_type : TrajoptModel.init; i_data : TrajoptModel.mat T; i_dt : T }.
  Definition no_data : TrajoptModel.mat T := {| TrajoptModel.m_rows := []; TrajoptModel.m_cols := 0 |}.
  (** readInitInfo, 222-270; [old] is the data before *)
  Definition read_init (n_steps : Z) (n_dof : nat) (old : TrajoptModel.mat T) (v : json) : run init_info :=
    rdo (child_req as_string "type" v) (fun ty =>
    rdo (child as_double "dt" none_ v) (fun dt =>
    if iequals ty "stationary" then Done {| i_type := TrajoptModel.Stationary; i_data := old; i_dt := dt |}
    else if iequals ty "given_traj" then
      rdo (child_req (fun d => Done d) "data" v) (fun d =>
      if negb (Z.of_nat (length (elements d)) =? n_steps)%Z then Thrown
      else rdo (rmap (fun i => rdo (at_index i d) (from_array_n as_double (Z.of_nat n_dof))) (seq 0 (Z.to_nat n_steps))) (fun rows =>
           Done {| i_type := TrajoptModel.GivenTraj; i_data := {| TrajoptModel.m_rows := rows; TrajoptModel.m_cols := n_dof |}; i_dt := dt |}))
    else if iequals ty "joint_interpolated" then
      rdo (child_req (from_array as_double) "endpoint" v) (fun e =>
      if negb (length e =? n_dof)%nat then Thrown
      else Done {| i_type := TrajoptModel.JointInterpolated;
                   i_data := {| TrajoptModel.m_rows := map (fun x => [x]) e; TrajoptModel.m_cols := 1 |}; i_dt := dt |})
    else Thrown)).

  (** ** Terms *)
  (** the joint group: numJoints, hasLinkName, isActiveLinkName *)
  Record group := { g_dof : nat; g_has : string -> bool; g_active : string -> bool }.
  (** Eigen::Quaterniond(w, x, y, z).matrix(): rows; no normalisation *)
  Definition quat_matrix (q : T * T * T * T) : list (list T) :=
    let '(w, x, y, z) := q in
    let two a := a + a in
    [ [none_ - (two y * y + two z * z); two y * x - two z * w; two z * x + two y * w];
      [two y * x + two z * w; none_ - (two x * x + two z * z); two z * y - two x * w];
      [two z * x - two y * w; two z * y + two x * w; none_ - (two x * x + two y * y)] ].
  Record offset := { o_linear : list (list T); o_translation : T * T * T }.
  Record pose_term := {
    ps_timestep : Z; ps_pos : T * T * T; ps_rot : T * T * T; ps_source : string; ps_target : string;
    ps_source_offset : offset; ps_target_offset : offset
  }.
  Record vel_term := { cv_first : Z; cv_last : Z; cv_max : T; cv_link : string }.
  (** the calls of setCollisionMargin and setCollisionCoeff: links, coefficient, margin *)
  Record coll_term := {
    cl_type : Z; cl_first : Z; cl_last : Z; cl_lvs : T; cl_buffer : T; cl_fixed : list Z; cl_contact : Z;
    cl_coeff : T; cl_margin : T; cl_pairs : list (string * string * T * T)
  }.
  Inductive body :=
  | BPose (dynamic : bool) (p : pose_term)
  | BVel (p : vel_term)
  | BJoint (o : TrajCostModel.order) (p : TrajoptModel.jterm T)
  | BColl (p : coll_term)
  | BTime (coeff limit : T).

  Definition names_ok (allowed : list string) (v : json) : bool :=
    match v with
    | JObj m => TrajoptModel.ensure_only_members (map fst m) allowed
    | JArr l => TrajoptModel.ensure_only_members (map (fun _ => ""%string) l) allowed
    | _ => true
    end.
  (** ensure_only_members, 32-52 *)
  Definition only_members {A} (k : TrajoptModel.jkind) (v : json) (r : run A) : run A :=
    rdo r (fun a => if names_ok (TrajoptModel.fields k) v then Done a else Thrown).

  Definition v3 (x y z : T) : T * T * T := (x, y, z).
  Definition unit_q : T * T * T * T := (none_, nzero, nzero, nzero).
  (** CartPoseTermInfo::fromJson, 832-899, and DynamicCartPoseTermInfo::fromJson, 685-749 *)
  Definition read_pose (dynamic : bool) (n_steps : Z) (g : group) (v : json) : run pose_term :=
    only_members (if dynamic then TrajoptModel.KDynamicCartPose else TrajoptModel.KCartPose) v (
    rdo (child as_int "timestep" (n_steps - 1)%Z v) (fun t =>
    rdo (child as_vec3 "pos_coeffs" (none_, none_, none_) v) (fun pc =>
    rdo (child as_vec3 "rot_coeffs" (none_, none_, none_) v) (fun rc =>
    rdo (child_req as_string "source_frame" v) (fun sf =>
    rdo (child_req as_string "target_frame" v) (fun tf =>
    rdo (child as_vec3 "source_frame_offset_xyz" (nzero, nzero, nzero) v) (fun sx =>
    rdo (child as_vec4 "source_frame_offset_wxyz" unit_q v) (fun sq =>
    rdo (child as_vec3 "target_frame_offset_xyz" (nzero, nzero, nzero) v) (fun tx =>
    rdo (child as_vec4 "target_frame_offset_wxyz" unit_q v) (fun tq =>
    if negb (g_has g sf) then Thrown
    else if negb (g_has g tf) then Thrown
    else if (if dynamic then negb (g_active g sf && g_active g tf) else eqb (g_active g sf) (g_active g tf)) then Thrown
    else Done {| ps_timestep := t; ps_pos := pc; ps_rot := rc; ps_source := sf; ps_target := tf;
                 ps_source_offset := {| o_linear := quat_matrix sq; o_translation := sx |};
                 ps_target_offset := {| o_linear := quat_matrix tq; o_translation := tx |} |})))))))))).
  (** CartVelTermInfo::fromJson, 989-1009 *)
  Definition read_vel (n_steps : Z) (g : group) (v : json) : run vel_term :=
    only_members TrajoptModel.KCartVel v (
    rdo (child_req as_int "first_step" v) (fun f =>
    rdo (child_req as_int "last_step" v) (fun l =>
    rdo (child_req as_double "max_displacement" v) (fun m =>
    if negb (TrajoptModel.cart_vel_accepts n_steps f l) then Thrown
    else rdo (child_req as_string "link" v) (fun k =>
    if negb (g_active g k) then Thrown
    else Done {| cv_first := f; cv_last := l; cv_max := m; cv_link := k |}))))).
  (** JointPosTermInfo, JointVelTermInfo, JointAccTermInfo, JointJerkTermInfo: 1059-1076, 1178-1195, 1374-1391, 1495-1513 *)
  Definition joint_kind (o : TrajCostModel.order) : TrajoptModel.jkind :=
    match o with
    | TrajCostModel.Pos => TrajoptModel.KJointPos
    | TrajCostModel.Vel => TrajoptModel.KJointVel
    | TrajCostModel.Acc => TrajoptModel.KJointAcc
    | TrajCostModel.Jerk => TrajoptModel.KJointJerk
    end.
  Definition read_joint (o : TrajCostModel.order) (ty n_steps : Z) (g : group) (v : json) : run (TrajoptModel.jterm T) :=
    only_members (joint_kind o) v (
    rdo (child_req (from_array as_double) "targets" v) (fun tg =>
    rdo (child (from_array as_double) "coeffs" (repeat none_ (g_dof g)) v) (fun c =>
    rdo (child (from_array as_double) "upper_tols" (repeat nzero (g_dof g)) v) (fun u =>
    rdo (child (from_array as_double) "lower_tols" (repeat nzero (g_dof g)) v) (fun l =>
    rdo (child as_int "first_step" 0%Z v) (fun f =>
    rdo (child as_int "last_step" (n_steps - 1)%Z v) (fun e =>
    Done {| TrajoptModel.jt_type := ty; TrajoptModel.jt_coeffs := c; TrajoptModel.jt_targets := tg; TrajoptModel.jt_uppers := u;
            TrajoptModel.jt_lowers := l; TrajoptModel.jt_first := f; TrajoptModel.jt_last := e |}))))))).
  (** one entry of "pairs", 1671-1698: the calls made for it *)
  Definition read_pair (v : json) : run (list (string * string * T * T)) :=
    rdo (child_req as_string "link" v) (fun l =>
    rdo (child_req (from_array as_string) "pair" v) (fun ps =>
    if (length ps =? 0)%nat then Thrown
    else rdo (child_req as_double "coeffs" v) (fun c =>
    rdo (child_req as_double "dist_pen" v) (fun d =>
    Done (map (fun p => (l, p, c, d)) ps))))).
  (** CollisionTermInfo::fromJson, 1617-1712 *)
  Definition read_coll (n_steps : Z) (v : json) : run coll_term :=
    only_members TrajoptModel.KCollision v (
    rdo (child as_int "evaluator_type" 1%Z v) (fun ty =>
    rdo (child as_int "first_step" 0%Z v) (fun f =>
    rdo (child as_int "last_step" (n_steps - 1)%Z v) (fun l =>
    rdo (child as_double "longest_valid_segment_length" (ndec 5 (-1)) v) (fun lvs =>
    rdo (child as_double "safety_margin_buffer" (ndec 5 (-1)) v) (fun b =>
    if negb (nzero <=? lvs) then Thrown
    else if negb ((0 <=? f) && (f <? n_steps))%Z then Thrown
    else if negb ((f <=? l) && (l <? n_steps))%Z then Thrown
    else if negb (ty <=? 4)%Z then Thrown
    else if negb (nzero <=? b) then Thrown
    else rdo (child (from_array as_int) "fixed_steps" [] v) (fun fs =>
    if negb (forallb (fun s => negb ((s <? f) || (l <? s))%Z) fs) then Thrown
    else rdo (child as_int "contact_test_type" 2%Z v) (fun ct =>
    if negb ((0 <=? ct) && (ct <? 3))%Z then Thrown
    else rdo (child_req as_double "coeffs" v) (fun c =>
    rdo (child_req as_double "dist_pen" v) (fun d =>
    rdo (child (from_array read_pair) "pairs" [] v) (fun ps =>
    Done {| cl_type := ty; cl_first := f; cl_last := l; cl_lvs := lvs; cl_buffer := b; cl_fixed := fs; cl_contact := ct;
            cl_coeff := c; cl_margin := d; cl_pairs := concat ps |}))))))))))).
  (** TotalTimeTermInfo::fromJson, 1839-1849 *)
  Definition read_time (v : json) : run (T * T) :=
    only_members TrajoptModel.KTotalTime v (
    rdo (child as_double "coeff" none_ v) (fun c =>
    rdo (child as_double "limit" none_ v) (fun l => Done (c, l)))).

  (** RegisterMakers and TermInfo::fromName, 54-67 and 106-116; makers registered by users are left out *)
  Inductive maker := MPose (dynamic : bool) | MVel | MJoint (o : TrajCostModel.order) | MColl | MTime.
  Definition makers : list (string * maker) :=
    [("dynamic_cart_pose", MPose true); ("cart_pose", MPose false); ("cart_vel", MVel); ("joint_pos", MJoint TrajCostModel.Pos);
     ("joint_vel", MJoint TrajCostModel.Vel); ("joint_acc", MJoint TrajCostModel.Acc); ("joint_jerk", MJoint TrajCostModel.Jerk);
     ("collision", MColl); ("total_time", MTime)]%string.
  Fixpoint find_maker (name : string) (l : list (string * maker)) : option maker :=
    match l with [] => None | (n, m) :: l => if String.eqb name n then Some m else find_maker name l end.
  (** TermInfo: name, term_type and the members read by fromJson *)
  Record term := { t_name : string; t_type : Z; t_body : body }.
  Definition read_body (m : maker) (ty n_steps : Z) (g : group) (v : json) : run body :=
    rdo (child_req (fun p => Done p) "params" v) (fun p =>
    match m with
    | MPose dyn => rdo (read_pose dyn n_steps g p) (fun b => Done (BPose dyn b))
    | MVel => rdo (read_vel n_steps g p) (fun b => Done (BVel b))
    | MJoint o => rdo (read_joint o ty n_steps g p) (fun b => Done (BJoint o b))
    | MColl => rdo (read_coll n_steps p) (fun b => Done (BColl b))
    | MTime => rdo (read_time p) (fun cl => Done (BTime (fst cl) (snd cl)))
    end).
  (** one turn of the loops of readCosts ([kind] is TT_COST) and readConstraints ([kind] is TT_CNT), 166-189 and 196-219 *)
  Definition read_term (kind n_steps : Z) (g : group) (v : json) : run term :=
    rdo (child_req as_string "type" v) (fun ty =>
    rdo (child as_bool "use_time" false v) (fun ut =>
    match find_maker ty makers with
    | None => Thrown
    | Some m =>
        let tt := if ut then Z.lor kind TrajoptModel.TT_USE_TIME else kind in
        rdo (read_body m tt n_steps g v) (fun b =>
        rdo (child as_string "name" ty v) (fun nm =>
        Done {| t_name := nm; t_type := tt; t_body := b |}))
    end)).
  Definition uses_time (t : term) : bool := TrajoptModel.has (t_type t) TrajoptModel.TT_USE_TIME.
  (** readCosts and readConstraints, 162-191 and 193-220: the terms; basic_info.use_time becomes true with the first one that
      uses time, and nothing read in between depends on it *)
  Definition read_terms (kind n_steps : Z) (g : group) (v : json) : run (list term) := from_array (read_term kind n_steps g) v.

  (** ProblemConstructionInfo, problem_description.hpp 235-250 *)
  Record problem := { q_basic : basic; q_opt : params; q_costs : list term; q_cnts : list term; q_init : init_info; q_group : group }.
  Definition with_time (b : basic) (t : bool) : basic :=
    {| b_steps := b_steps b; b_manip := b_manip b; b_fixed_timesteps := b_fixed_timesteps b; b_fixed_dofs := b_fixed_dofs b; b_solver := b_solver b;
       b_dt_lower := b_dt_lower b; b_dt_upper := b_dt_upper b; b_time := t |}.
  (** an optional section *)
  Definition section {A} (name : string) (df : A) (rd : json -> run A) (v : json) : run A := child rd name df v.
  (** ProblemConstructionInfo::fromJson, 272-308, on a new object; [groups] is env->getJointGroup *)
  Definition read_problem (groups : string -> option group) (df : params) (v : json) : run problem :=
    rdo (child_req (read_basic (PipeModel.kind_value PipeModel.AUTO_SOLVER)) "basic_info" v) (fun b =>
    rdo (section "opt_info" df (read_opt df) v) (fun o =>
    match groups (b_manip b) with
    | None => Thrown
    | Some g =>
        rdo (section "costs" [] (read_terms TrajoptModel.TT_COST (b_steps b) g) v) (fun cs =>
        rdo (section "constraints" [] (read_terms TrajoptModel.TT_CNT (b_steps b) g) v) (fun ns =>
        rdo (child_req (read_init (b_steps b) (g_dof g) no_data) "init_info" v) (fun i =>
        Done {| q_basic := with_time b (b_time b || existsb uses_time (cs ++ ns)); q_opt := o; q_costs := cs; q_cnts := ns; q_init := i; q_group := g |})))
    end)).
  (** OptimizeProblem, 393-410: the parameters the optimizer gets.  The problem (TrajOptProb) has none. *)
  Definition optimize_params (df : params) : params :=
    {| p_improve_ratio_threshold := ndec 2 (-1); p_min_trust_box_size := p_min_trust_box_size df; p_min_approx_improve := p_min_approx_improve df;
       p_min_approx_improve_frac := ndec 1 (-3); p_max_iter := 40; p_trust_shrink_ratio := p_trust_shrink_ratio df;
       p_trust_expand_ratio := p_trust_expand_ratio df; p_cnt_tolerance := p_cnt_tolerance df;
       p_max_merit_coeff_increases := p_max_merit_coeff_increases df; p_max_qp_solver_failures := p_max_qp_solver_failures df;
       p_merit_coeff_increase_ratio := p_merit_coeff_increase_ratio df; p_max_time := p_max_time df;
       p_initial_merit_error_coeff := nofZ 20; p_inflate_individually := p_inflate_individually df; p_trust_box_size := p_trust_box_size df |}.
  (** ConstructProblem(root, env) and OptimizeProblem: the parameters of the run *)
  Definition run_params (groups : string -> option group) (df : params) (v : json) : run params :=
    rdo (read_problem groups df v) (fun _ => Done (optimize_params df)).
End Json.
Arguments json : clear implicits.
Arguments basic : clear implicits.
Arguments params : clear implicits.
Arguments init_info : clear implicits.
Arguments pose_term : clear implicits.
Arguments vel_term : clear implicits.
Arguments coll_term : clear implicits.
Arguments body : clear implicits.
Arguments term : clear implicits.
Arguments problem : clear implicits.
