(** * Model of the log files and of the trajectory file

    Sources: trajopt_sco/src/optimizers.cpp (BasicTrustRegionSQPResults::writeSolver, writeVars, writeCosts,
    writeConstraints and their use in optimize()), trajopt/src/file_write_callback.cpp.

    A file is a list of symbols: characters, and numbers, which stand for their digits (printing a number writes neither
    a comma nor a newline).  Forward kinematics is a parameter; flushing is left out.  [Undef] is a read out of range or a
    null stream handed to fclose. *)
From Coq Require Import ZArith Ascii String List Bool Arith.
From Verif Require Import Num Common.
Import ListNotations.

Inductive sym (T : Type) := Ch (c : ascii) | Nm (x : T).
Arguments Ch {T}. Arguments Nm {T}.

Section Log.
  Context {T : Type} {NT : Num T}.
  Local Open Scope num_scope.
  Notation file := (list (sym T)).

  Fixpoint text (s : string) : file := match s with EmptyString => [] | String c s => Ch c :: text s end.
  Definition num (x : T) : file := [Nm x].
  Definition newline : file := [Ch "010"%char].
  (** ",%s" and ",%e" *)
  Definition item (f : file) : file := Ch ","%char :: f.
  Definition items (l : list file) : file := flat_map item l.

  (** BasicTrustRegionSQPResults, optimizers.hpp: the members that are written *)
  Record results := {
    var_names : list string; cost_names : list string; cnt_names : list string;
    new_x : list T;
    old_cost_vals : list T; model_cost_vals : list T; new_cost_vals : list T;
    old_cnt_viols : list T; model_cnt_viols : list T; new_cnt_viols : list T;
    merit_error_coeffs : list T;
    old_merit : T; new_merit : T; approx_merit_improve : T; exact_merit_improve : T; merit_improve_ratio : T
  }.

  (** writeSolver, 533-547 *)
  Definition write_solver (r : results) (header : bool) : file :=
    (if header then text "DESCRIPTION" ++ items [text "oldexact"; text "new_exact"; text "dapprox"; text "dexact"; text "ratio"] ++ newline else []) ++
    text "Solver" ++ items [num (old_merit r); num (new_merit r); num (approx_merit_improve r); num (exact_merit_improve r); num (merit_improve_ratio r)] ++ newline.
  (** writeVars, 549-566 *)
  Definition write_vars (r : results) (header : bool) : file :=
    (if header then text "NAMES" ++ items (map text (var_names r)) ++ newline else []) ++
    text "VALUES" ++ items (map num (new_x r)) ++ newline.

  (** the two header lines, 570-584 and 606-620 *)
  Definition write_names (title : string) (names : list string) : file :=
    text title ++ flat_map (fun n => items [text n; text n; text n; text n]) names ++ newline ++
    text "DESCRIPTION" ++ flat_map (fun _ => items [text "oldexact"; text "dapprox"; text "dexact"; text "ratio"]) names ++ newline.
  (** v[i] *)
  Definition at_ (l : list T) (i : nat) : outcome T := match nth_error l i with Some x => Ok x | None => Undef end.
  Definition ratio (approx exact : T) : file := if nabs approx >? ndec 1 (-8) then num (exact / approx) else text "nan".
  (** one cost, 589-599 *)
  Definition write_cost (r : results) (i : nat) : outcome file :=
    obind (at_ (old_cost_vals r) i) (fun old =>
    obind (at_ (model_cost_vals r) i) (fun model =>
    obind (at_ (new_cost_vals r) i) (fun new =>
    let approx := old - model in
    let exact := old - new in
    Ok (items [num old; num approx; num exact; ratio approx exact])))).
  (** one constraint, 625-645 *)
  Definition write_cnt (r : results) (i : nat) : outcome file :=
    obind (at_ (old_cnt_viols r) i) (fun old =>
    obind (at_ (model_cnt_viols r) i) (fun model =>
    obind (at_ (new_cnt_viols r) i) (fun new =>
    obind (at_ (merit_error_coeffs r) i) (fun c =>
    let approx := old - model in
    let exact := old - new in
    Ok (items [num (c * old); num (c * approx); num (c * exact); ratio approx exact]))))).
  Fixpoint write_all (f : nat -> outcome file) (l : list nat) : outcome file :=
    match l with
    | [] => Ok []
    | i :: l => obind (f i) (fun a => obind (write_all f l) (fun b => Ok (a ++ b)))
    end.
  (** writeCosts, 568-602 *)
  Definition write_costs (r : results) (header : bool) : outcome file :=
    obind (write_all (write_cost r) (seq 0 (length (old_cost_vals r)))) (fun row =>
    Ok ((if header then write_names "COST NAMES" (cost_names r) else []) ++ text "COSTS" ++ row ++ newline)).
  (** writeConstraints, 604-650 *)
  Definition write_constraints (r : results) (header : bool) : outcome file :=
    obind (write_all (write_cnt r) (seq 0 (length (old_cnt_viols r)))) (fun row =>
    Ok ((if header then write_names "CONSTRAINT NAMES" (cnt_names r) else []) ++ text "CONSTRAINTS" ++ row ++ newline)).

  (** ** The files of one call of optimize(), 708-718, 858-873 and 980-987 *)
  Record logs := { log_solver : file; log_vars : file; log_costs : file; log_constraints : file }.
  (** which of the four fopen succeeded *)
  Record opened := { op_solver : bool; op_vars : bool; op_costs : bool; op_constraints : bool }.
  Definition no_logs : logs := {| log_solver := []; log_vars := []; log_costs := []; log_constraints := [] |}.
  (** one solved subproblem: [n] is results_.n_func_evals before its increment in 873 *)
  Definition log_step (o : opened) (g : logs) (n : Z) (r : results) : outcome logs :=
    let h := (n =? 1)%Z in
    obind (if op_costs o then write_costs r h else Ok []) (fun c =>
    obind (if op_constraints o then write_constraints r h else Ok []) (fun v =>
    Ok {| log_solver := log_solver g ++ (if op_solver o then write_solver r h else []);
          log_vars := log_vars g ++ (if op_vars o then write_vars r h else []);
          log_costs := log_costs g ++ c; log_constraints := log_constraints g ++ v |})).
  Fixpoint log_steps (o : opened) (g : logs) (n : Z) (rs : list results) : outcome logs :=
    match rs with
    | [] => Ok g
    | r :: rs => obind (log_step o g n r) (fun g => log_steps o g (n + 1) rs)
    end.
  (** the whole call: fopen with "w" empties the files, the solved subproblems are logged, fclose.  [n] is n_func_evals at the
      first solved subproblem: 1 after initialize(), more in a later call. *)
  Definition logged_run (o : opened) (n : Z) (rs : list results) : outcome logs :=
    obind (log_steps o no_logs n rs) (fun g =>
    if op_solver o && op_vars o && op_costs o && op_constraints o then Ok g else Undef).

  (** ** file_write_callback.cpp *)
  (** WriteCallback, 95-141: the heading; [joints] are the names of the active joints of the environment *)
  Definition join (l : list file) : file := match l with [] => [] | f :: l => f ++ items l end.
  Definition pose_labels : list string := ["x"; "y"; "z"; "q_w"; "q_x"; "q_y"; "q_z"]%string.
  Definition write_heading (joints costs cnts : list string) : file :=
    join (map text joints) ++ items (map text pose_labels) ++ items (map text costs) ++ items (map text cnts) ++ newline.
  (** WriteFile, 33-92: [links] is the map of poses the kinematics returns for the row, a pose as x y z qw qx qy qz *)
  Definition write_link (l : string * list T) : file := text (fst l) ++ text ": " ++ items (map num (snd l)).
  Definition write_row (fk : list T -> list (string * list T)) (row costs cnts : list T) : file :=
    join (map num row) ++ flat_map write_link (fk row) ++ items (map num costs) ++ items (map num cnts) ++ newline.
  Definition write_file (fk : list T -> list (string * list T)) (traj : list (list T)) (costs cnts : list T) : file :=
    flat_map (fun row => write_row fk row costs cnts) traj ++ newline.
End Log.
Arguments results : clear implicits.
