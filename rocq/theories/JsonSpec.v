(** * What a JSON document says, independently of how it is read *)
From Coq Require Import ZArith String Ascii List Bool Reals.
From Verif Require Import Num Common JsonModel.
From Verif Require PipeModel TrajoptModel TrajCostModel CollisionModel.
Import ListNotations.

Section Spec.
  Context {T : Type} {NT : Num T}.
  Notation json := (json T).
  Notation members := (list (string * json)).

  (** values of the types of the schema *)
  Inductive is_int : json -> Z -> Prop := is_int_ z : (- 2 ^ 31 <= z < 2 ^ 31)%Z -> is_int (JInt z) z.
  Inductive is_num : json -> T -> Prop := is_num_real r : is_num (JReal r) r | is_num_int z : is_num (JInt z) (nofZ z).
  Inductive is_text : json -> string -> Prop := is_text_ s : is_text (JStr s) s.
  Inductive is_flag : json -> bool -> Prop := is_flag_ b : is_flag (JBool b) b.
  Inductive is_list {A} (P : json -> A -> Prop) : json -> list A -> Prop := is_list_ vs l : Forall2 P vs l -> is_list P (JArr vs) l.
  Inductive is_vec3 : json -> T * T * T -> Prop := is_vec3_ v x y z : is_list is_num v [x; y; z] -> is_vec3 v (x, y, z).
  Inductive is_vec4 : json -> T * T * T * T -> Prop := is_vec4_ v w x y z : is_list is_num v [w; x; y; z] -> is_vec4 v (w, x, y, z).

  (** an object states a value for a name *)
  Definition states {A} (m : members) (n : string) (P : json -> A -> Prop) (x : A) : Prop := exists v, In (n, v) m /\ P v x.
  Definition states_or {A} (m : members) (n : string) (P : json -> A -> Prop) (df x : A) : Prop :=
    (~ In n (map fst m) /\ x = df) \/ states m n P x.
  Definition distinct (m : members) : Prop := NoDup (map fst m).
  (** no names but those *)
  Definition within (m : members) (names : list string) : Prop := forall n, In n (map fst m) -> In n names.

  (** the section basic_info; [solver] is what convex_solver means *)
  Definition says_basic (s0 : nat) (m : members) (b : basic T) : Prop :=
    states m "n_steps" is_int (b_steps b) /\
    states m "manip" is_text (b_manip b) /\
    states_or m "fixed_timesteps" (is_list is_int) [] (b_fixed_timesteps b) /\
    states_or m "fixed_dofs" (is_list is_int) [] (b_fixed_dofs b) /\
    states_or m "convex_solver" (fun v k => exists s, is_text v s /\ PipeModel.of_name s = Some k) s0 (b_solver b) /\
    states_or m "dt_lower_lim" is_num none_ (b_dt_lower b) /\
    states_or m "dt_upper_lim" is_num none_ (b_dt_upper b) /\
    states_or m "use_time" is_flag false (b_time b).

  (** opt_info: fourteen of the parameters; [p] has the others *)
  Definition says_opt (df : params T) (m : members) (p : params T) : Prop :=
    states_or m "improve_ratio_threshold" is_num (p_improve_ratio_threshold df) (p_improve_ratio_threshold p) /\
    states_or m "min_trust_box_size" is_num (p_min_trust_box_size df) (p_min_trust_box_size p) /\
    states_or m "min_approx_improve" is_num (p_min_approx_improve df) (p_min_approx_improve p) /\
    states_or m "min_approx_improve_frac" is_num (p_min_approx_improve_frac df) (p_min_approx_improve_frac p) /\
    states_or m "max_iter" is_int (p_max_iter df) (p_max_iter p) /\
    states_or m "trust_shrink_ratio" is_num (p_trust_shrink_ratio df) (p_trust_shrink_ratio p) /\
    states_or m "trust_expand_ratio" is_num (p_trust_expand_ratio df) (p_trust_expand_ratio p) /\
    states_or m "cnt_tolerance" is_num (p_cnt_tolerance df) (p_cnt_tolerance p) /\
    states_or m "max_merit_coeff_increases" is_num (p_max_merit_coeff_increases df) (p_max_merit_coeff_increases p) /\
    states_or m "merit_coeff_increase_ratio" is_num (p_merit_coeff_increase_ratio df) (p_merit_coeff_increase_ratio p) /\
    states_or m "max_time" is_num (p_max_time df) (p_max_time p) /\
    states_or m "initial_merit_error_coeff" is_num (p_initial_merit_error_coeff df) (p_initial_merit_error_coeff p) /\
    states_or m "inflate_constraints_individually" is_flag (p_inflate_individually df) (p_inflate_individually p) /\
    states_or m "trust_box_size" is_num (p_trust_box_size df) (p_trust_box_size p) /\
    p_max_qp_solver_failures p = p_max_qp_solver_failures df.

  (** [s] is the word [w] (given in small letters) up to the case of letters *)
  Definition upper_of (c : ascii) : ascii := ascii_of_nat (nat_of_ascii c - 32).
  Inductive word : string -> string -> Prop :=
  | word_nil : word EmptyString EmptyString
  | word_same c s w : word s w -> word (String c s) (String c w)
  | word_upper c s w : (97 <= nat_of_ascii c <= 122)%nat -> word s w -> word (String (upper_of c) s) (String c w).

  (** init_info for a manipulator of [n_dof] joints at [start]: the rows of the trajectory *)
  Inductive says_init (n_steps : Z) (start : list T) (m : members) : list (list T) -> T -> Prop :=
  | says_stationary ty dt : states m "type" is_text ty -> word ty "stationary" -> states_or m "dt" is_num none_ dt ->
      says_init n_steps start m (repeat start (Z.to_nat n_steps)) dt
  | says_given ty dt rows : states m "type" is_text ty -> word ty "given_traj" -> states_or m "dt" is_num none_ dt ->
      states m "data" (is_list (is_list is_num)) rows -> Z.of_nat (length rows) = n_steps -> Forall (fun r => length r = length start) rows ->
      says_init n_steps start m rows dt
  | says_interpolated ty dt e : states m "type" is_text ty -> word ty "joint_interpolated" -> states_or m "dt" is_num none_ dt ->
      states m "endpoint" (is_list is_num) e -> length e = length start ->
      says_init n_steps start m (CollisionModel.interp_rows (Z.to_nat n_steps) start e) dt.

  (** the params of the terms; the frames are those of [g] *)
  Definition says_offset (m : members) (xyz wxyz : string) (o : offset) : Prop :=
    states_or m xyz is_vec3 (nzero, nzero, nzero) (o_translation o) /\
    exists q, states_or m wxyz is_vec4 (none_, nzero, nzero, nzero) q /\ o_linear o = quat_matrix q.
  Definition pose_names : list string :=
    ["timestep"; "pos_coeffs"; "rot_coeffs"; "source_frame"; "target_frame"; "source_frame_offset_xyz"; "source_frame_offset_wxyz";
     "target_frame_offset_xyz"; "target_frame_offset_wxyz"]%string.
  Definition says_pose (n_steps : Z) (m : members) (p : pose_term T) : Prop :=
    within m pose_names /\
    states_or m "timestep" is_int (n_steps - 1)%Z (ps_timestep p) /\
    states_or m "pos_coeffs" is_vec3 (none_, none_, none_) (ps_pos p) /\
    states_or m "rot_coeffs" is_vec3 (none_, none_, none_) (ps_rot p) /\
    states m "source_frame" is_text (ps_source p) /\
    states m "target_frame" is_text (ps_target p) /\
    says_offset m "source_frame_offset_xyz" "source_frame_offset_wxyz" (ps_source_offset p) /\
    says_offset m "target_frame_offset_xyz" "target_frame_offset_wxyz" (ps_target_offset p).
  Definition pose_fits (dynamic : bool) (g : group) (p : pose_term T) : Prop :=
    g_has g (ps_source p) = true /\ g_has g (ps_target p) = true /\
    if dynamic then g_active g (ps_source p) = true /\ g_active g (ps_target p) = true
    else g_active g (ps_source p) <> g_active g (ps_target p).
  Definition says_vel (m : members) (p : vel_term T) : Prop :=
    within m ["first_step"; "last_step"; "max_displacement"; "link"]%string /\
    states m "first_step" is_int (cv_first p) /\ states m "last_step" is_int (cv_last p) /\
    states m "max_displacement" is_num (cv_max p) /\ states m "link" is_text (cv_link p).
  Definition vel_fits (n_steps : Z) (g : group) (p : vel_term T) : Prop :=
    (0 <= cv_first p < cv_last p)%Z /\ (cv_last p <= n_steps - 1)%Z /\ g_active g (cv_link p) = true.
  Definition joint_names (o : TrajCostModel.order) : list string :=
    app ["coeffs"; "first_step"; "last_step"; "targets"; "lower_tols"; "upper_tols"]%string
        match o with TrajCostModel.Vel | TrajCostModel.Acc => ["use_time"%string] | _ => [] end.
  Definition says_joint (o : TrajCostModel.order) (ty n_steps : Z) (dof : nat) (m : members) (p : TrajoptModel.jterm T) : Prop :=
    within m (joint_names o) /\ TrajoptModel.jt_type p = ty /\
    states m "targets" (is_list is_num) (TrajoptModel.jt_targets p) /\
    states_or m "coeffs" (is_list is_num) (repeat none_ dof) (TrajoptModel.jt_coeffs p) /\
    states_or m "upper_tols" (is_list is_num) (repeat nzero dof) (TrajoptModel.jt_uppers p) /\
    states_or m "lower_tols" (is_list is_num) (repeat nzero dof) (TrajoptModel.jt_lowers p) /\
    states_or m "first_step" is_int 0%Z (TrajoptModel.jt_first p) /\
    states_or m "last_step" is_int (n_steps - 1)%Z (TrajoptModel.jt_last p).
  (** an entry of pairs: coefficient and margin of the link with each of the others *)
  Inductive says_pair : json -> list (string * string * T * T) -> Prop :=
  | says_pair_ m l ps c d : distinct m -> states m "link" is_text l -> states m "pair" (is_list is_text) ps -> ps <> [] ->
      states m "coeffs" is_num c -> states m "dist_pen" is_num d -> says_pair (JObj m) (map (fun p => (l, p, c, d)) ps).
  Definition coll_names : list string :=
    ["type"; "first_step"; "last_step"; "evaluator_type"; "fixed_steps"; "contact_test_type"; "longest_valid_segment_length"; "coeffs";
     "dist_pen"; "pairs"]%string.
  Definition says_coll (n_steps : Z) (m : members) (p : coll_term T) : Prop :=
    within m coll_names /\
    states_or m "evaluator_type" is_int 1%Z (cl_type p) /\
    states_or m "first_step" is_int 0%Z (cl_first p) /\
    states_or m "last_step" is_int (n_steps - 1)%Z (cl_last p) /\
    states_or m "longest_valid_segment_length" is_num (ndec 5 (-1)) (cl_lvs p) /\
    cl_buffer p = ndec 5 (-1) /\
    states_or m "fixed_steps" (is_list is_int) [] (cl_fixed p) /\
    states_or m "contact_test_type" is_int 2%Z (cl_contact p) /\
    states m "coeffs" is_num (cl_coeff p) /\ states m "dist_pen" is_num (cl_margin p) /\
    exists ps, states_or m "pairs" (is_list says_pair) [] ps /\ cl_pairs p = concat ps.
  Definition coll_fits (n_steps : Z) (p : coll_term T) : Prop :=
    (0 <= cl_first p <= cl_last p)%Z /\ (cl_last p < n_steps)%Z /\ (cl_type p <= 4)%Z /\ (0 <= cl_contact p < 3)%Z /\
    (forall s, In s (cl_fixed p) -> (cl_first p <= s <= cl_last p)%Z) /\ nleb nzero (cl_lvs p) = true /\ nleb nzero (cl_buffer p) = true.
  Definition says_time (m : members) (c l : T) : Prop :=
    within m ["coeff"; "limit"]%string /\ states_or m "coeff" is_num none_ c /\ states_or m "limit" is_num none_ l.

  (** a term: its type names the kind *)
  Inductive says_body (ty n_steps : Z) (g : group) : string -> members -> body T -> Prop :=
  | says_body_dynamic m p : says_pose n_steps m p -> pose_fits true g p -> says_body ty n_steps g "dynamic_cart_pose" m (BPose true p)
  | says_body_pose m p : says_pose n_steps m p -> pose_fits false g p -> says_body ty n_steps g "cart_pose" m (BPose false p)
  | says_body_vel m p : says_vel m p -> vel_fits n_steps g p -> says_body ty n_steps g "cart_vel" m (BVel p)
  | says_body_jpos m p : says_joint TrajCostModel.Pos ty n_steps (g_dof g) m p -> says_body ty n_steps g "joint_pos" m (BJoint TrajCostModel.Pos p)
  | says_body_jvel m p : says_joint TrajCostModel.Vel ty n_steps (g_dof g) m p -> says_body ty n_steps g "joint_vel" m (BJoint TrajCostModel.Vel p)
  | says_body_jacc m p : says_joint TrajCostModel.Acc ty n_steps (g_dof g) m p -> says_body ty n_steps g "joint_acc" m (BJoint TrajCostModel.Acc p)
  | says_body_jjerk m p : says_joint TrajCostModel.Jerk ty n_steps (g_dof g) m p -> says_body ty n_steps g "joint_jerk" m (BJoint TrajCostModel.Jerk p)
  | says_body_coll m p : says_coll n_steps m p -> coll_fits n_steps p -> says_body ty n_steps g "collision" m (BColl p)
  | says_body_time m c l : says_time m c l -> says_body ty n_steps g "total_time" m (BTime c l).
  (** [kind] is 1 for a cost and 2 for a constraint; 4 is added when time is used *)
  Inductive says_term (kind n_steps : Z) (g : group) : json -> term T -> Prop :=
  | says_term_ m ty ut pm b nm : distinct m -> states m "type" is_text ty -> states_or m "use_time" is_flag false ut ->
      In ("params"%string, JObj pm) m -> distinct pm -> says_body (kind + if ut then 4 else 0)%Z n_steps g ty pm b ->
      states_or m "name" is_text ty nm ->
      says_term kind n_steps g (JObj m) {| t_name := nm; t_type := (kind + if ut then 4 else 0)%Z; t_body := b |}.

  (** the whole document; [groups] are the manipulators of the environment, [df] the default parameters *)
  Definition is_object {A} (P : members -> A -> Prop) (v : json) (x : A) : Prop := exists m, v = JObj m /\ distinct m /\ P m x.
  Definition says_problem (groups : string -> option group) (df : params T) (m : members) (b : basic T) (o : params T) (g : group)
      (cs ns : list (term T)) (im : members) : Prop :=
    states m "basic_info" (is_object (says_basic 4)) b /\
    states_or m "opt_info" (is_object (says_opt df)) df o /\
    groups (b_manip b) = Some g /\
    states_or m "costs" (is_list (says_term 1 (b_steps b) g)) [] cs /\
    states_or m "constraints" (is_list (says_term 2 (b_steps b) g)) [] ns /\
    In ("init_info"%string, JObj im) m /\ distinct im.
End Spec.
