(** * C123, C124: log files and the trajectory file *)
From Coq Require Import ZArith Ascii String List Bool Arith Lia QArith_base.
From Verif Require Import Num Common LogModel LogSpec LogProofs.
Import ListNotations.
Local Open Scope nat_scope.

(** ** C123: the log files are tables whose columns hold what their headings say *)
(** one record of costs: the title, then four columns for each cost, below the name of that cost and the name of the quantity *)
Theorem C123_costs : forall (T : Type) (NT : Num T) vars costs cnts (r : results T) h, fits vars costs cnts r -> forallb plain costs = true ->
  exists out, write_costs r h = Ok out /\ exists heads row, table out = heads ++ [row] /\ row_of "COSTS" (cost_cells r) (length costs) row /\
    if h then exists l1 l2, heads = [l1; l2] /\ row_of "COST NAMES" (names_of costs) (length costs) l1 /\ row_of "DESCRIPTION" description (length costs) l2
    else heads = [].
Proof. intros T NT vars costs cnts r h F P. destruct (write_costs_ok _ _ _ r h F P) as (out & A & _ & B). eauto. Qed.
Print Assumptions C123_costs.

(** likewise constraints, the amounts times the penalty coefficient, the ratio as it is *)
Theorem C123_constraints : forall (T : Type) (NT : Num T) vars costs cnts (r : results T) h, fits vars costs cnts r -> forallb plain cnts = true ->
  exists out, write_constraints r h = Ok out /\ exists heads row, table out = heads ++ [row] /\ row_of "CONSTRAINTS" (cnt_cells r) (length cnts) row /\
    if h then exists l1 l2, heads = [l1; l2] /\ row_of "CONSTRAINT NAMES" (names_of cnts) (length cnts) l1 /\ row_of "DESCRIPTION" description (length cnts) l2
    else heads = [].
Proof. intros T NT vars costs cnts r h F P. destruct (write_constraints_ok _ _ _ r h F P) as (out & A & _ & B). eauto. Qed.
Print Assumptions C123_constraints.

Definition solver_row {T} (r : results T) : list (list (sym T)) :=
  [text "Solver"; [Nm (old_merit r)]; [Nm (new_merit r)]; [Nm (approx_merit_improve r)]; [Nm (exact_merit_improve r)]; [Nm (merit_improve_ratio r)]].
Definition vars_row {T} (r : results T) : list (list (sym T)) := text "VALUES" :: map (fun x => [Nm x]) (new_x r).
Lemma solver_table : forall (T : Type) (NT : Num T) (r : results T) h,
  ended (write_solver r h) /\
  table (write_solver r h) = (if h then [[text "DESCRIPTION"; text "oldexact"; text "new_exact"; text "dapprox"; text "dexact"; text "ratio"]] else []) ++ [solver_row r].
Proof. intros T NT r h. split; [|destruct h; reflexivity]. right. unfold write_solver. rewrite !app_assoc. eexists. reflexivity. Qed.
Lemma vars_table : forall (T : Type) (NT : Num T) vars costs cnts (r : results T) h, fits vars costs cnts r -> forallb plain vars = true ->
  ended (write_vars r h) /\ table (write_vars r h) = (if h then [text "NAMES" :: map text vars] else []) ++ [vars_row r] /\ length (vars_row r) = (1 + length vars)%nat.
Proof.
  intros T NT vars costs cnts r h F P. split; [right; unfold write_vars; rewrite !app_assoc; eexists; reflexivity|]. split; [|unfold vars_row; cbn [length]; rewrite map_length, (f_x _ _ _ _ F); reflexivity].
  unfold write_vars. rewrite (f_vars _ _ _ _ F).
  assert (V : table (text "VALUES" ++ items (map num (new_x r)) ++ newline) = [vars_row r]).
  { apply table_last; try apply plain_clean; try apply clean_nums; reflexivity. }
  destruct h; [|exact V]. destruct (clean_texts (T := T) vars P) as [A B]. rewrite <- !app_assoc, table_cons by (assumption || (apply plain_clean; reflexivity)). rewrite V. reflexivity.
Qed.

(** The files after a call of optimize() on initialised results: each is a heading, then one row for each solved subproblem in
    the order they were solved, every row as wide as the heading. *)
Definition all_open : opened := {| op_solver := true; op_vars := true; op_costs := true; op_constraints := true |}.
Theorem C123_run : forall (T : Type) (NT : Num T) vars costs cnts (rs : list (results T)), rs <> [] -> Forall (fits vars costs cnts) rs ->
  forallb plain vars = true -> forallb plain costs = true -> forallb plain cnts = true ->
  exists g, logged_run all_open 1 rs = Ok g /\
    table (log_solver g) = [text "DESCRIPTION"; text "oldexact"; text "new_exact"; text "dapprox"; text "dexact"; text "ratio"] :: map solver_row rs /\
    table (log_vars g) = (text "NAMES" :: map text vars) :: map vars_row rs /\
    (exists l1 l2 rows, table (log_costs g) = l1 :: l2 :: rows /\ row_of "COST NAMES" (names_of costs) (length costs) l1 /\
       row_of "DESCRIPTION" description (length costs) l2 /\ Forall2 (fun r => row_of "COSTS" (cost_cells r) (length costs)) rs rows) /\
    (exists l1 l2 rows, table (log_constraints g) = l1 :: l2 :: rows /\ row_of "CONSTRAINT NAMES" (names_of cnts) (length cnts) l1 /\
       row_of "DESCRIPTION" description (length cnts) l2 /\ Forall2 (fun r => row_of "CONSTRAINTS" (cnt_cells r) (length cnts)) rs rows) /\
    Forall (fun r => length (vars_row r) = (1 + length vars)%nat) rs.
Proof.
  intros T NT vars costs cnts rs Ne F Pv Pc Pn.
  (* the rows after the first *)
  assert (K : forall rs n (g : logs), (1 < n)%Z -> Forall (fits vars costs cnts) rs -> ended (log_solver g) -> ended (log_vars g) -> ended (log_costs g) -> ended (log_constraints g) ->
    exists g', log_steps all_open g n rs = Ok g' /\ table (log_solver g') = table (log_solver g) ++ map solver_row rs /\ table (log_vars g') = table (log_vars g) ++ map vars_row rs /\
      (exists rows, table (log_costs g') = table (log_costs g) ++ rows /\ Forall2 (fun r => row_of "COSTS" (cost_cells r) (length costs)) rs rows) /\
      (exists rows, table (log_constraints g') = table (log_constraints g) ++ rows /\ Forall2 (fun r => row_of "CONSTRAINTS" (cnt_cells r) (length cnts)) rs rows)).
  { clear rs Ne F. induction rs as [|r rs IH]; intros n g N F E1 E2 E3 E4.
    - exists g. cbn [log_steps map]. rewrite !app_nil_r. split; [reflexivity|]. split; [reflexivity|]. split; [reflexivity|].
      split; exists []; rewrite app_nil_r; split; constructor.
    - inversion F as [|? ? Fr Fs]; subst. cbn [log_steps]. unfold log_step. cbn [op_solver op_vars op_costs op_constraints all_open].
      assert (Hn : (n =? 1)%Z = false) by (apply Z.eqb_neq; lia). rewrite Hn.
      destruct (write_costs_ok _ _ _ r false Fr Pc) as (oc & Ec & Dc & hc & rc & Tc & Rc & Hc). destruct (write_constraints_ok _ _ _ r false Fr Pn) as (ov & Ev & Dv & hv & rv & Tv & Rv & Hv).
      rewrite Ec, Ev. cbn [obind]. destruct (solver_table T NT r false) as [Ds Ts]. destruct (vars_table T NT _ _ _ r false Fr Pv) as (Dx & Tx & _).
      subst hc hv. cbn [app] in *.
      match goal with |- context [log_steps all_open ?x _ _] => set (g1 := x) end.
      destruct (IH (n + 1)%Z g1) as (g' & A & B1 & B2 & (w3 & B3 & R3) & (w4 & B4 & R4)); try (unfold g1; cbn [log_solver log_vars log_costs log_constraints]; apply ended_app; assumption); [lia|assumption|].
      exists g'. split; [exact A|]. rewrite B1, B2, B3, B4. unfold g1. cbn [log_solver log_vars log_costs log_constraints map].
      rewrite !table_app, Ts, Tx, Tc, Tv, <- !app_assoc by assumption. cbn [app]. split; [reflexivity|]. split; [reflexivity|].
      split; eexists; (split; [reflexivity|]); constructor; assumption. }
  destruct rs as [|r rs]; [congruence|]. inversion F as [|? ? Fr Fs]; subst.
  unfold logged_run. cbn [log_steps]. unfold log_step. cbn [op_solver op_vars op_costs op_constraints all_open andb]. change (1 =? 1)%Z with true. change (1 + 1)%Z with 2%Z.
  destruct (write_costs_ok _ _ _ r true Fr Pc) as (oc & Ec & Dc & hc & rc & Tc & Rc & (a1 & a2 & -> & A1 & A2)).
  destruct (write_constraints_ok _ _ _ r true Fr Pn) as (ov & Ev & Dv & hv & rv & Tv & Rv & (b1 & b2 & -> & B1 & B2)).
  rewrite Ec, Ev. cbn [obind]. destruct (solver_table T NT r true) as [Ds Ts]. destruct (vars_table T NT _ _ _ r true Fr Pv) as (Dx & Tx & _).
  match goal with |- context [log_steps all_open ?x _ _] => set (g1 := x) end. cbn [no_logs log_solver log_vars log_costs log_constraints app] in g1.
  destruct (K rs 2%Z g1) as (g' & A & C1 & C2 & (w3 & C3 & R3) & (w4 & C4 & R4)); try assumption; [lia|].
  rewrite A. cbn [obind]. exists g'. split; [reflexivity|]. rewrite C1, C2, C3, C4. unfold g1. cbn [log_solver log_vars log_costs log_constraints].
  rewrite Ts, Tx, Tc, Tv. cbn [app map]. split; [reflexivity|]. split; [reflexivity|].
  split; [exists a1, a2, (rc :: w3); split; [reflexivity|]; split; [assumption|]; split; [assumption|constructor; assumption]|].
  split; [exists b1, b2, (rv :: w4); split; [reflexivity|]; split; [assumption|]; split; [assumption|constructor; assumption]|].
  apply Forall_forall. intros q Q. rewrite Forall_forall in F. destruct (vars_table T NT _ _ _ q true (F q Q) Pv) as (_ & _ & L). exact L.
Qed.
Print Assumptions C123_run.

(** A second call of optimize() empties the files and writes no heading, as n_func_evals goes on counting. *)
Theorem C123_again_refuted : exists (r : results Q) g, fits ["x"%string] ["c"%string] [] r /\ logged_run all_open 2 [r] = Ok g /\
  table (log_vars g) = [vars_row r] /\ table (log_solver g) = [solver_row r].
Proof.
  exists {| var_names := ["x"%string]; cost_names := ["c"%string]; cnt_names := []; new_x := [1%Q]; old_cost_vals := [3%Q]; model_cost_vals := [1%Q]; new_cost_vals := [2%Q];
            old_cnt_viols := []; model_cnt_viols := []; new_cnt_viols := []; merit_error_coeffs := [];
            old_merit := 3%Q; new_merit := 2%Q; approx_merit_improve := 2%Q; exact_merit_improve := 1%Q; merit_improve_ratio := (1 # 2)%Q |}.
  eexists. split; [constructor; reflexivity|]. split; [reflexivity|]. split; reflexivity.
Qed.
Print Assumptions C123_again_refuted.

(** A log that cannot be opened (no such directory) is not written, but its null stream is closed at the end: no run survives. *)
Theorem C123_unopened : forall (T : Type) (NT : Num T) o n (rs : list (results T)) g, o <> all_open -> logged_run o n rs <> Ok g.
Proof.
  intros T NT o n rs g O E. unfold logged_run in E. destruct (log_steps _ _ _ _); cbn [obind] in E; try discriminate.
  destruct o as [[] [] [] []]; cbn in E; try discriminate. apply O. reflexivity.
Qed.
Print Assumptions C123_unopened.
Theorem C123_unopened_refuted : exists (o : opened) (rs : list (results Q)), op_vars o = true /\ op_costs o = true /\ op_constraints o = true /\ logged_run o 1 rs = Undef.
Proof. exists {| op_solver := false; op_vars := true; op_costs := true; op_constraints := true |}, []. cbn. auto. Qed.
Print Assumptions C123_unopened_refuted.

(** Names are not quoted: a comma in a name shifts the columns of the heading. *)
Theorem C123_comma_refuted : exists r : results Q, exists h row, table (write_vars r true) = [h; row] /\ length (new_x r) = length (var_names r) /\ length h <> length row.
Proof.
  exists {| var_names := ["j,0"%string]; cost_names := []; cnt_names := []; new_x := [1%Q]; old_cost_vals := []; model_cost_vals := []; new_cost_vals := [];
            old_cnt_viols := []; model_cnt_viols := []; new_cnt_viols := []; merit_error_coeffs := [];
            old_merit := 3%Q; new_merit := 2%Q; approx_merit_improve := 2%Q; exact_merit_improve := 1%Q; merit_improve_ratio := (1 # 2)%Q |}.
  eexists. eexists. split; [reflexivity|]. split; [reflexivity|]. vm_compute. discriminate.
Qed.
Print Assumptions C123_comma_refuted.

(** ** C124: the trajectory file *)
Lemma fields_join : forall (T : Type) (f : list (sym T)) l rest, Forall (clean ",") (f :: l) -> Forall (clean ",") rest -> fields (join (f :: l) ++ items rest) = f :: l ++ rest.
Proof.
  intros T f l rest F Rr. inversion F; subst. cbn [join]. rewrite <- app_assoc. unfold items. rewrite <- flat_map_app. apply fields_items; [assumption|].
  apply Forall_app. split; assumption.
Qed.
(** The heading has one label for each active joint of the environment, seven for one pose, then the costs and constraints. *)
Theorem C124_heading : forall (T : Type) joints costs cnts, joints <> [] -> forallb plain joints = true -> forallb plain costs = true -> forallb plain cnts = true ->
  table (write_heading (T := T) joints costs cnts) = [map text (joints ++ ["x"; "y"; "z"; "q_w"; "q_x"; "q_y"; "q_z"]%string ++ costs ++ cnts)].
Proof.
  intros T joints costs cnts J P1 P2 P3. unfold write_heading. destruct (clean_texts (T := T) _ P1) as [A1 A2], (clean_texts (T := T) _ P2) as [B1 B2], (clean_texts (T := T) _ P3) as [C1 C2].
  destruct (clean_texts (T := T) pose_labels eq_refl) as [D1 D2].
  destruct joints as [|j joints]; [congruence|]. cbn [map join]. rewrite !map_app.
  replace ((text j ++ items (map text joints)) ++ items (map text pose_labels) ++ items (map text costs) ++ items (map text cnts) ++ newline)
    with (text j ++ items (map text joints ++ map text pose_labels ++ map text costs ++ map text cnts) ++ newline (T := T))
    by (unfold items; rewrite !flat_map_app, <- !app_assoc; reflexivity).
  cbn [map] in A1, A2. inversion A1; inversion A2; subst. rewrite table_last; try assumption; [reflexivity| |]; repeat (apply Forall_app; split; [assumption|]); assumption.
Qed.
Print Assumptions C124_heading.

(** A row: the values of the row, seven numbers for each link, the costs, the constraint violations.  The name of each link
    stands, without a comma, behind the number before its pose. *)
Theorem C124_row : forall (T : Type) (NT : Num T) fk (row costs cnts : list T), row <> [] -> well (fk row) -> exists fs,
  table (write_row fk row costs cnts) = [fs] /\
  length fs = length row + 7 * length (fk row) + length costs + length cnts /\
  (forall i, i < length row -> nth i fs [] = Nm (nth i row nzero) :: (if S i =? length row then tag (fk row) 0 else [])) /\
  (forall k l j, nth_error (fk row) k = Some l -> j < 7 ->
     nth (length row + 7 * k + j) fs [] = Nm (nth j (snd l) nzero) :: (if j =? 6 then tag (fk row) (S k) else [])) /\
  (forall i, i < length costs -> nth (length row + 7 * length (fk row) + i) fs [] = [Nm (nth i costs nzero)]) /\
  (forall i, i < length cnts -> nth (length row + 7 * length (fk row) + length costs + i) fs [] = [Nm (nth i cnts nzero)]).
Proof.
  intros T NT fk row costs cnts N W. set (g := glue (map num row) (fk row)).
  assert (N' : map num row <> []) by (destruct row; [congruence|discriminate]).
  destruct (glue_spec (fk row) (map num row) N' W) as (A & B & C). fold g in A, B, C. rewrite map_length in A, B, C.
  assert (Cl : forall sep, (sep = "," \/ sep = "010")%char -> Forall (clean sep) g).
  { intros sep S'. apply glue_clean; [intros l I; destruct (W l I) as [P _]; apply (plain_clean (T := T)) in P; destruct S' as [-> | ->]; apply P| |apply clean_nums].
    destruct S' as [-> | ->]; apply plain_clean; reflexivity. }
  assert (Ng : g <> []) by (apply glue_nonempty; assumption).
  assert (Num_ : forall l i, i < length l -> nth i (map num l) [] = [Nm (nth i l (nzero (T := T)))]).
  { intros l i I. rewrite nth_indep with (d' := num nzero) by (rewrite map_length; lia). apply (map_nth num). }
  exists (g ++ map num costs ++ map num cnts). split.
  - unfold write_row.
    replace (join (map num row) ++ flat_map write_link (fk row) ++ items (map num costs) ++ items (map num cnts) ++ newline)
      with ((join g ++ items (map num costs ++ map num cnts)) ++ newline) by (unfold g; rewrite <- glue_join by assumption; unfold items; rewrite flat_map_app, <- !app_assoc; reflexivity).
    rewrite join_app by assumption.
    assert (Ca : forall sep, (sep = "," \/ sep = "010")%char -> Forall (clean sep) (g ++ map num costs ++ map num cnts)).
    { intros sep S'. apply Forall_app. split; [apply Cl; exact S'|]. apply Forall_app. split; apply clean_nums. }
    destruct (g ++ map num costs ++ map num cnts) as [|f fs] eqn:E; [destruct g; [congruence|discriminate]|].
    pose proof (Ca ","%char (or_introl eq_refl)) as C1. pose proof (Ca "010"%char (or_intror eq_refl)) as C2. inversion C1; inversion C2; subst.
    cbn [join]. rewrite <- app_assoc. apply table_last; assumption.
  - split; [rewrite !app_length, !map_length; lia|]. split; [|split; [|split]].
    + intros i I. rewrite app_nth1 by lia. rewrite B, Num_ by assumption. reflexivity.
    + intros k l j E J. assert (k < length (fk row)) by (apply nth_error_Some; congruence). rewrite app_nth1 by lia. apply C; assumption.
    + intros i I. rewrite app_nth2 by lia. rewrite app_nth1 by (rewrite map_length; lia). rewrite <- Num_ by assumption. f_equal. lia.
    + intros i I. rewrite app_nth2 by lia. rewrite app_nth2 by (rewrite map_length; lia). rewrite <- Num_ by assumption. f_equal. rewrite map_length. lia.
Qed.
Print Assumptions C124_row.

(** One row for each step, then an empty line. *)
Theorem C124_rows : forall (T : Type) (NT : Num T) fk traj (costs cnts : list T), Forall (fun row => row <> [] /\ well (fk row)) traj ->
  table (write_file fk traj costs cnts) = flat_map (fun row => table (write_row fk row costs cnts)) traj ++ [[[]]].
Proof.
  intros T NT fk traj costs cnts F. unfold write_file. induction traj as [|row traj IH]; [reflexivity|]. inversion F; subst.
  cbn [flat_map]. rewrite <- !app_assoc, table_app, IH by (try assumption; right; unfold write_row; rewrite !app_assoc; eexists; reflexivity). reflexivity.
Qed.
Print Assumptions C124_rows.

(** So rows are as wide as the heading exactly when the values and seven numbers for each link are as many as the active
    joints and seven; with one link and one value for each joint, given that the costs have been evaluated. *)
Theorem C124_width : forall (T : Type) (NT : Num T) fk (row costs cnts : list T) joints cost_names cnt_names h fs,
  joints <> [] -> forallb plain joints = true -> forallb plain cost_names = true -> forallb plain cnt_names = true ->
  row <> [] -> well (fk row) ->
  table (write_heading (T := T) joints cost_names cnt_names) = [h] -> table (write_row fk row costs cnts) = [fs] ->
  (length h = length fs <-> length joints + 7 + length cost_names + length cnt_names = length row + 7 * length (fk row) + length costs + length cnts).
Proof.
  intros T NT fk row costs cnts joints cn vn h fs J P1 P2 P3 N W Eh Er. rewrite C124_heading in Eh by assumption. injection Eh as <-.
  destruct (C124_row T NT fk row costs cnts N W) as (fs' & Er' & L & _). rewrite Er in Er'. injection Er' as <-. rewrite L, map_length, !app_length. simpl Datatypes.length. rewrite !app_length. lia.
Qed.
Print Assumptions C124_width.

(** The kinematics return every link, also fixed ones: with two, the row is seven fields too wide. *)
Definition two_links (_ : list Q) : list (string * list Q) := [("base"%string, [0; 0; 0; 1; 0; 0; 0]%Q); ("tool"%string, [1; 2; 3; 1; 0; 0; 0]%Q)].
Theorem C124_links_refuted : exists h fs, table (write_heading (T := Q) ["j1"; "j2"]%string ["c"%string] []) = [h] /\ table (write_row two_links [1; 2]%Q [5]%Q []) = [fs] /\
  length h = 10 /\ length fs = 17.
Proof. eexists. eexists. split; [reflexivity|]. split; [reflexivity|]. split; reflexivity. Qed.
Print Assumptions C124_links_refuted.
(** With a single link the widths agree, but the column of the last joint does not hold a number. *)
Theorem C124_glued : forall (T : Type) (NT : Num T) fk (row costs cnts : list T) l ls fs, row <> [] -> well (fk row) -> fk row = l :: ls ->
  table (write_row fk row costs cnts) = [fs] -> forall x, nth (length row - 1) fs [] <> [Nm x].
Proof.
  intros T NT fk row costs cnts l ls fs N W E Er x. destruct (C124_row T NT fk row costs cnts N W) as (fs' & Er' & _ & V & _). rewrite Er in Er'. injection Er' as <-.
  assert (0 < length row) by (destruct row; [congruence|cbn; lia]). rewrite V by lia.
  assert ((S (length row - 1) =? length row) = true) as -> by (apply Nat.eqb_eq; lia). rewrite E. unfold tag. cbn [nth_error].
  intros H'. injection H' as _ H'. apply app_eq_nil in H' as [_ H']. discriminate.
Qed.
Print Assumptions C124_glued.
Definition one_link (_ : list Q) : list (string * list Q) := [("tool"%string, [1; 2; 3; 1; 0; 0; 0]%Q)].
Theorem C124_glued_refuted : exists fs, table (write_row one_link [1; 2]%Q [5]%Q []) = [fs] /\ length fs = 10 /\ nth 1 fs [] = Nm 2%Q :: text "tool: ".
Proof. eexists. split; [reflexivity|]. split; reflexivity. Qed.
Print Assumptions C124_glued_refuted.
(** The callback is first called before anything is evaluated (optimizers.cpp 753-765): the costs are missing from those rows. *)
Theorem C124_first_refuted : exists h fs, table (write_heading (T := Q) ["j1"; "j2"]%string ["c"%string] []) = [h] /\ table (write_row one_link [1; 2]%Q [] []) = [fs] /\
  length h = 10 /\ length fs = 9.
Proof. eexists. eexists. split; [reflexivity|]. split; [reflexivity|]. split; reflexivity. Qed.
Print Assumptions C124_first_refuted.

(** ** Examples *)
Definition ex_results : results Q :=
  {| var_names := ["x"; "y"]%string; cost_names := ["c"%string]; cnt_names := ["v"%string]; new_x := [1; 2]%Q;
     old_cost_vals := [3%Q]; model_cost_vals := [1%Q]; new_cost_vals := [2%Q];
     old_cnt_viols := [1%Q]; model_cnt_viols := [1%Q]; new_cnt_viols := [0%Q]; merit_error_coeffs := [10%Q];
     old_merit := 13%Q; new_merit := 2%Q; approx_merit_improve := 2%Q; exact_merit_improve := 11%Q; merit_improve_ratio := (11 # 2)%Q |}.
Example C123_fits : fits ["x"; "y"]%string ["c"%string] ["v"%string] ex_results.
Proof. constructor; reflexivity. Qed.
Example C123_log : exists g, logged_run all_open 1 [ex_results; ex_results] = Ok g /\
  table (log_vars g) = [[text "NAMES"; text "x"; text "y"]; [text "VALUES"; [Nm 1%Q]; [Nm 2%Q]]; [text "VALUES"; [Nm 1%Q]; [Nm 2%Q]]] /\
  length (table (log_costs g)) = 4 /\
  nth 2 (table (log_constraints g)) [] = [text "CONSTRAINTS"; [Nm 10%Q]; [Nm 0%Q]; [Nm 10%Q]; text "nan"].
Proof. eexists. split; [reflexivity|]. split; [reflexivity|]. split; [reflexivity|]. vm_compute. reflexivity. Qed.
Example C124_file : table (write_row one_link [1; 2]%Q [5]%Q [7]%Q) =
  [[[Nm 1%Q]; Nm 2%Q :: text "tool: "; [Nm 1%Q]; [Nm 2%Q]; [Nm 3%Q]; [Nm 1%Q]; [Nm 0%Q]; [Nm 0%Q]; [Nm 0%Q]; [Nm 5%Q]; [Nm 7%Q]]].
Proof. reflexivity. Qed.
Example C124_well : well (one_link [1; 2]%Q).
Proof. intros l [<-|[]]. split; reflexivity. Qed.
