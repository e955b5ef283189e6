(** * The documents of trajopt_common/data/config, transcribed, and what reading them gives

    Numbers are rationals here, so that reading can be computed. *)
From Coq Require Import ZArith QArith String Ascii List Bool.
From Verif Require Import Num Common JsonModel.
From Verif Require PipeModel TrajoptModel TrajCostModel.
Import ListNotations.
Import TrajoptModel (run, Done, Thrown, Assert, rdo, rmap).
Local Open Scope string_scope.
Local Open Scope Z_scope.


(** trajopt_common/data/config/arm_around_table.json *)
Definition arm_around_table : json Q :=
  JObj [("basic_info", JObj [("fixed_timesteps", JArr [JInt 0]); ("manip", JStr "right_arm"); ("n_steps", JInt 6)]); ("constraints", JArr [JObj
  [("name", JStr "joint0"); ("params", JObj [("coeffs", JArr [JInt 1; JInt 1; JInt 1; JInt 1; JInt 1; JInt 1; JInt 1]); ("first_step", JInt 5);
  ("last_step", JInt 5); ("targets", JArr [JReal (62 # 1000); JReal (1287 # 1000); JReal (1 # 10); JReal (-1554 # 1000); JReal (-3011 # 1000); JReal
  (-268 # 1000); JReal (2988 # 1000)])]); ("type", JStr "joint_pos")]]); ("costs", JArr [JObj [("params", JObj [("coeffs", JArr [JInt 1]); ("targets",
  JArr [JInt 0; JInt 0; JInt 0; JInt 0; JInt 0; JInt 0; JInt 0])]); ("type", JStr "joint_vel")]; JObj [("params", JObj [("coeffs", JInt 20);
  ("dist_pen", JReal (25 # 1000)); ("evaluator_type", JInt 4); ("fixed_steps", JArr [JInt 0; JInt 5]); ("longest_valid_segment_length", JReal (2 #
  100))]); ("type", JStr "collision")]]); ("init_info", JObj [("data", JArr [JArr [JReal (-1832 # 1000); JReal (-332 # 1000); JReal (-1011 # 1000);
  JReal (-1437 # 1000); JReal (-11 # 10); JReal (-1926 # 1000); JReal (3074 # 1000)]; JArr [JReal (-1411 # 1000); JReal (28 # 1000); JReal (-764 #
  1000); JReal (-1463 # 1000); JReal (-1525 # 1000); JReal (-1698 # 1000); JReal (3055 # 1000)]; JArr [JReal (-99 # 100); JReal (388 # 1000); JReal
  (-517 # 1000); JReal (-1489 # 1000); JReal (-1949 # 1000); JReal (-1289 # 1000); JReal (3036 # 1000)]; JArr [JReal (-569 # 1000); JReal (747 # 1000);
  JReal (-27 # 100); JReal (-1515 # 1000); JReal (-2374 # 1000); JReal (-881 # 1000); JReal (3017 # 1000)]; JArr [JReal (-148 # 1000); JReal (1107 #
  1000); JReal (-23 # 1000); JReal (-1541 # 1000); JReal (-2799 # 1000); JReal (-472 # 1000); JReal (2998 # 1000)]; JArr [JReal (62 # 1000); JReal (1287
  # 1000); JReal (1 # 10); JReal (-1554 # 1000); JReal (-3011 # 1000); JReal (-268 # 1000); JReal (2988 # 1000)]]); ("type", JStr "given_traj")])].

(** trajopt_common/data/config/arm_around_table_continuous.json *)
Definition arm_around_table_continuous : json Q :=
  JObj [("basic_info", JObj [("fixed_timesteps", JArr [JInt 0]); ("manip", JStr "right_arm"); ("n_steps", JInt 6)]); ("constraints", JArr [JObj
  [("name", JStr "joint0"); ("params", JObj [("coeffs", JArr [JInt 1; JInt 1; JInt 1; JInt 1; JInt 1; JInt 1; JInt 1]); ("first_step", JInt 5);
  ("last_step", JInt 5); ("targets", JArr [JReal (62 # 1000); JReal (1287 # 1000); JReal (1 # 10); JReal (-1554 # 1000); JReal (-3011 # 1000); JReal
  (-268 # 1000); JReal (2988 # 1000)])]); ("type", JStr "joint")]]); ("costs", JArr [JObj [("name", JStr "jvel0"); ("params", JObj [("coeffs", JArr
  [JInt 1]); ("targets", JArr [JInt 0; JInt 0; JInt 0; JInt 0; JInt 0; JInt 0; JInt 0])]); ("type", JStr "joint_vel")]; JObj [("name", JStr
  "collision"); ("params", JObj [("coeffs", JInt 20); ("dist_pen", JReal (25 # 1000)); ("evaluator_type", JInt 4); ("longest_valid_segment_length",
  JReal (1 # 10))]); ("type", JStr "collision")]]); ("init_info", JObj [("data", JArr [JArr [JReal (-1832 # 1000); JReal (-332 # 1000); JReal (-1011 #
  1000); JReal (-1437 # 1000); JReal (-11 # 10); JReal (-1926 # 1000); JReal (3074 # 1000)]; JArr [JReal (-1411 # 1000); JReal (28 # 1000); JReal (-764
  # 1000); JReal (-1463 # 1000); JReal (-1525 # 1000); JReal (-1698 # 1000); JReal (3055 # 1000)]; JArr [JReal (-99 # 100); JReal (388 # 1000); JReal
  (-517 # 1000); JReal (-1489 # 1000); JReal (-1949 # 1000); JReal (-1289 # 1000); JReal (3036 # 1000)]; JArr [JReal (-569 # 1000); JReal (747 # 1000);
  JReal (-27 # 100); JReal (-1515 # 1000); JReal (-2374 # 1000); JReal (-881 # 1000); JReal (3017 # 1000)]; JArr [JReal (-148 # 1000); JReal (1107 #
  1000); JReal (-23 # 1000); JReal (-1541 # 1000); JReal (-2799 # 1000); JReal (-472 # 1000); JReal (2998 # 1000)]; JArr [JReal (62 # 1000); JReal (1287
  # 1000); JReal (1 # 10); JReal (-1554 # 1000); JReal (-3011 # 1000); JReal (-268 # 1000); JReal (2988 # 1000)]]); ("type", JStr "given_traj")])].

(** trajopt_common/data/config/arm_around_table_time.json *)
Definition arm_around_table_time : json Q :=
  JObj [("basic_info", JObj [("fixed_timesteps", JArr [JInt 0]); ("manip", JStr "right_arm"); ("n_steps", JInt 10)]); ("constraints", JArr [JObj
  [("name", JStr "joint0"); ("params", JObj [("coeffs", JArr [JInt 1; JInt 1; JInt 1; JInt 1; JInt 1; JInt 1; JInt 1]); ("first_step", JInt 9);
  ("last_step", JInt 9); ("targets", JArr [JReal (62 # 1000); JReal (1287 # 1000); JReal (1 # 10); JReal (-1554 # 1000); JReal (-3011 # 1000); JReal
  (-268 # 1000); JReal (2988 # 1000)])]); ("type", JStr "joint_pos"); ("use_time", JStr "tRuE")]]); ("costs", JArr [JObj [("params", JObj [("coeffs",
  JArr [JInt 1]); ("targets", JArr [JInt 0; JInt 0; JInt 0; JInt 0; JInt 0; JInt 0; JInt 0])]); ("type", JStr "joint_vel"); ("use_time", JStr "false")];
  JObj [("params", JObj [("coeffs", JInt 20); ("dist_pen", JReal (25 # 1000)); ("evaluator_type", JInt 4); ("longest_valid_segment_length", JReal (5 #
  100))]); ("type", JStr "collision")]]); ("init_info", JObj [("dt", JReal (12341234 # 100000000)); ("endpoint", JArr [JReal (62 # 1000); JReal (1287 #
  1000); JReal (1 # 10); JReal (-1554 # 1000); JReal (-3011 # 1000); JReal (-268 # 1000); JReal (2988 # 1000)]); ("type", JStr "joint_interpolated")])].

(** trajopt_common/data/config/box_cast_test.json *)
Definition box_cast_test : json Q :=
  JObj [("basic_info", JObj [("fixed_timesteps", JArr [JInt 0]); ("manip", JStr "manipulator"); ("n_steps", JInt 3)]); ("constraints", JArr [JObj
  [("name", JStr "joint"); ("params", JObj [("coeffs", JArr [JInt 1; JInt 1]); ("first_step", JInt 2); ("last_step", JInt 2); ("targets", JArr [JReal
  (19 # 10); JReal (38 # 10)])]); ("type", JStr "joint_pos")]]); ("costs", JArr [JObj [("name", JStr "jvel0"); ("params", JObj [("coeffs", JArr [JInt
  1]); ("targets", JArr [JInt 0; JInt 0])]); ("type", JStr "joint_vel")]; JObj [("params", JObj [("coeffs", JInt 10); ("dist_pen", JReal (2 # 100));
  ("evaluator_type", JInt 4); ("fixed_steps", JArr [JInt 0; JInt 2]); ("longest_valid_segment_length", JReal (5 # 100))]); ("type", JStr
  "collision")]]); ("init_info", JObj [("data", JArr [JArr [JReal (-19 # 10); JInt 0]; JArr [JInt 0; JReal (19 # 10)]; JArr [JReal (19 # 10); JReal (38
  # 10)]]); ("type", JStr "given_traj")])].

(** trajopt_common/data/config/numerical_ik1.json *)
Definition numerical_ik1 : json Q :=
  JObj [("basic_info", JObj [("convex_solver", JStr "AUTO_SOLVER"); ("manip", JStr "left_arm"); ("n_steps", JInt 1)]); ("constraints", JArr [JObj
  [("params", JObj [("pos_coeffs", JArr [JInt 1; JInt 1; JInt 1]); ("rot_coeffs", JArr [JInt 1; JInt 1; JInt 1]); ("source_frame", JStr
  "l_gripper_tool_frame"); ("target_frame", JStr "base_footprint"); ("target_frame_offset_wxyz", JArr [JInt 0; JInt 0; JInt 1; JInt 0]);
  ("target_frame_offset_xyz", JArr [JReal (4 # 10); JInt 0; JReal (8 # 10)])]); ("type", JStr "cart_pose")]]); ("init_info", JObj [("type", JStr
  "stationary")])].

(** trajopt_common/data/config/simple_collision_test.json *)
Definition simple_collision_test : json Q :=
  JObj [("basic_info", JObj [("manip", JStr "manipulator"); ("n_steps", JInt 1)]); ("constraints", JArr [JObj [("params", JObj [("coeffs", JInt 1);
  ("dist_pen", JReal (2 # 10)); ("evaluator_type", JInt 1); ("longest_valid_segment_length", JReal (5 # 100))]); ("type", JStr "collision")]]);
  ("costs", JArr [JObj [("params", JObj [("coeffs", JInt 1); ("dist_pen", JReal (3 # 10)); ("evaluator_type", JInt 1); ("longest_valid_segment_length",
  JReal (5 # 100))]); ("type", JStr "collision")]; JObj [("name", JStr "joint0"); ("params", JObj [("coeffs", JArr [JInt 1; JInt 1]); ("first_step",
  JInt 0); ("last_step", JInt 0); ("targets", JArr [JReal (0 # 10); JReal (0 # 10)])]); ("type", JStr "joint_pos")]]); ("init_info", JObj [("data", JArr
  [JArr [JReal (-75 # 100); JReal (75 # 100)]]); ("type", JStr "given_traj")])].

(** the manipulators of the tests: every link is known, the base is not active *)
Definition shipped_groups (manip : string) : option group :=
  let g n := Some {| g_dof := n; g_has := fun _ => true; g_active := fun l => negb (String.eqb l "base_footprint") |} in
  if String.eqb manip "right_arm" || String.eqb manip "left_arm" then g 7%nat
  else if String.eqb manip "manipulator" then g 2%nat else None.
Definition dflt : params Q := default_params (-1000000 # 1) (1000000 # 1).
Definition read (v : json Q) : run (problem Q) := read_problem (fun q => Z.quot (Qnum q) (Zpos (Qden q))) (fun _ => "") (fun _ => "") shipped_groups dflt v.

(** Four of the six are accepted. *)
Example shipped_accepted : Forall (fun v => exists p, read v = Done p) [arm_around_table; box_cast_test; numerical_ik1; simple_collision_test].
Proof. repeat (constructor; [eexists; vm_compute; reflexivity|]). constructor. Qed.
(** What the first says. *)
Example shipped_arm : exists p, read arm_around_table = Done p /\
  b_steps (q_basic p) = 6 /\ b_fixed_timesteps (q_basic p) = [0] /\ b_time (q_basic p) = false /\ q_opt p = dflt /\
  map t_name (q_costs p) = ["joint_vel"; "collision"] /\ map t_type (q_costs p) = [1; 1] /\
  map t_name (q_cnts p) = ["joint0"] /\ map t_type (q_cnts p) = [2] /\
  i_type (q_init p) = TrajoptModel.GivenTraj /\ length (TrajoptModel.m_rows (i_data (q_init p))) = 6%nat /\
  match map t_body (q_costs p) with
  | [_; BColl c] => cl_type c = 4 /\ cl_fixed c = [0; 5] /\ cl_first c = 0 /\ cl_last c = 5 /\ cl_coeff c == 20 /\ cl_margin c == 25 # 1000 /\ cl_lvs c == 2 # 100 /\ cl_contact c = 2
  | _ => False
  end.
Proof. eexists. split; [vm_compute; reflexivity|]. cbn. repeat split. Qed.
(** The other two are not: [use_time] is a text in one, the other has a term of the unknown type "joint". *)
Theorem C119_shipped_refuted : exists v w, v <> w /\
  incl [v; w] [arm_around_table; arm_around_table_continuous; arm_around_table_time; box_cast_test; numerical_ik1; simple_collision_test] /\
  read v = Thrown /\ read w = Thrown.
Proof.
  exists arm_around_table_continuous, arm_around_table_time. split; [discriminate|]. split; [intros x [<-|[<-|[]]]; cbn [In]; auto|].
  split; vm_compute; reflexivity.
Qed.
Print Assumptions C119_shipped_refuted.

(** opt_info is read, but the optimizer does not get it. *)
Theorem C118_opt_refuted : exists v p q, read v = Done p /\ p_max_iter (q_opt p) = 7 /\
  run_params (fun q => Z.quot (Qnum q) (Zpos (Qden q))) (fun _ => "") (fun _ => "") shipped_groups dflt v = Done q /\ p_max_iter q = 40.
Proof.
  exists (JObj [("basic_info", JObj [("manip", JStr "manipulator"); ("n_steps", JInt 3)]); ("init_info", JObj [("type", JStr "STATIONARY")]); ("opt_info", JObj [("max_iter", JInt 7)])]).
  do 2 eexists. split; [vm_compute; reflexivity|]. split; [reflexivity|]. split; [vm_compute; reflexivity|reflexivity].
Qed.
Print Assumptions C118_opt_refuted.
