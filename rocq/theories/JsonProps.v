(** * C117, C118, C119: problems read from JSON *)
From Coq Require Import ZArith String Ascii List Bool Arith Lia Reals Lra.
From Verif Require Import Num NumFacts Common JsonModel JsonSpec JsonProofs.
From Verif Require PipeModel TrajoptModel TrajCostModel CollisionModel.
Import ListNotations.
Import TrajoptModel (run, Done, Thrown, Assert, rdo, rmap).

(** ** C117: single values and lists *)
(** What has the announced type is read as it is, element by element for lists. *)
Theorem C117_typed : forall (T : Type) (NT : Num T) (tz : T -> Z) ti tr,
  (forall v z, is_int v z -> as_int tz v = Done z) /\
  (forall v (x : T), is_num v x -> as_double v = Done x) /\
  (forall v s, is_text v s -> as_string (T := T) ti tr v = Done s) /\
  (forall v b, is_flag (T := T) v b -> as_bool v = Done b) /\
  (forall v l, is_list is_int v l -> from_array (as_int tz) v = Done l) /\
  (forall v (l : list T), is_list is_num v l -> from_array as_double v = Done l /\
     forall n, from_array_n as_double n v = if (Z.of_nat (length l) =? n)%Z then Done l else Thrown).
Proof.
  intros T NT tz ti tr. split; [apply reads_int|]. split; [apply reads_num|]. split; [apply reads_text|]. split; [apply reads_flag|].
  split; [apply reads_list, reads_int|]. intros v l H. split; [apply (reads_list _ _ reads_num), H|]. intros n.
  unfold from_array_n. rewrite (elements_len _ _ _ H). destruct (Z.of_nat (length l) =? n)%Z; [apply (reads_list _ _ reads_num), H|reflexivity].
Qed.
Print Assumptions C117_typed.
Example C117_typed_ex : is_list (T := R) is_num (JArr [JInt 2; JReal (1 / 2)%R]) [2%R; (1 / 2)%R] /\ is_int (T := R) (JInt (-5)) (-5).
Proof. split; [constructor; constructor; [exact (is_num_int 2)|constructor; constructor]|constructor; lia]. Qed.

(** Conversion of a double to int: towards zero. *)
Definition truncates (tz : R -> Z) : Prop := forall r, (Rabs (IZR (tz r)) <= Rabs r)%R /\ (Rabs (r - IZR (tz r)) < 1)%R.
(** Whatever is accepted as an integer is within the range of int, and less than one away from the number in the document;
    only null and false count as 0 and true as 1. *)
Theorem C117_int : forall tz v z, truncates tz -> as_int (T := R) tz v = Done z ->
  (- 2 ^ 31 <= z < 2 ^ 31)%Z /\
  (v = JInt z \/ (exists r, v = JReal r /\ (Rabs (r - IZR z) < 1)%R) \/ (v = JNull /\ z = 0%Z) \/ (exists b : bool, v = JBool b /\ z = if b then 1%Z else 0%Z)).
Proof.
  intros tz v z TR H. destruct v; cbn [as_int] in H; try discriminate.
  - injection H as <-. split; [lia|auto].
  - injection H as <-. split; [destruct b; lia|]. right. right. right. exists b. auto.
  - destruct ((int_min <=? z0) && (z0 <=? int_max))%Z eqn:E; [|discriminate]. injection H as <-.
    apply andb_true_iff in E as [E1 E2]. apply Z.leb_le in E1, E2. unfold int_min, int_max in *. split; [lia|auto].
  - cbn [nleb nofZ R_Num] in H. destruct (Rleb_spec (IZR int_min) r) as [E1|]; [|discriminate]. destruct (Rleb_spec r (IZR int_max)) as [E2|]; [|discriminate]. cbn [andb] in H. injection H as <-.
    destruct (TR r) as [A B]. split; [|right; left; exists r; auto].
    unfold int_min, int_max in *. apply Rabs_def2 in B. destruct B as [B1 B2].
    assert (Z1 : (IZR (- 2 ^ 31 - 1) < IZR (tz r))%R).
    { rewrite minus_IZR. lra. }
    assert (Z2 : (IZR (tz r) < IZR (2 ^ 31 - 1 + 1))%R).
    { rewrite plus_IZR. lra. }
    apply lt_IZR in Z1. apply lt_IZR in Z2. lia.
Qed.
Print Assumptions C117_int.
Definition tz0 (r : R) : Z := if Rleb 0 r then Int_part r else (- Int_part (- r))%Z.
Lemma tz0_truncates : truncates tz0.
Proof.
  intros r. unfold tz0. destruct (Rleb_spec 0 r) as [P|P].
  - destruct (base_Int_part r) as [A B]. assert (Z0 : (IZR (-1) < IZR (Int_part r))%R) by lra. apply lt_IZR in Z0.
    assert (Z1 : (0 <= IZR (Int_part r))%R) by (apply IZR_le; lia). rewrite !Rabs_pos_eq by lra. lra.
  - destruct (base_Int_part (- r)) as [A B]. assert (Z0 : (IZR (-1) < IZR (Int_part (- r)))%R) by lra. apply lt_IZR in Z0.
    assert (Z1 : (0 <= IZR (Int_part (- r)))%R) by (apply IZR_le; lia). rewrite opp_IZR. rewrite Rabs_Ropp, (Rabs_pos_eq (IZR _)), (Rabs_left r) by lra.
    split; [lra|]. apply Rabs_def1; lra.
Qed.
Example C117_int_ex : as_int (T := R) tz0 (JReal (27 / 10)%R) = Done 2%Z.
Proof.
  unfold as_int. cbn [nleb R_Num]. destruct (Rleb_spec (nofZ int_min) (27 / 10)%R) as [_|H]; [|exfalso; cbn in H; lra].
  destruct (Rleb_spec (27 / 10)%R (nofZ int_max)) as [_|H]; [|exfalso; cbn in H; lra]. cbn [andb]. f_equal.
  unfold tz0. destruct (Rleb_spec 0 (27 / 10)%R) as [_|H]; [|exfalso; lra].
  destruct (base_Int_part (27 / 10)%R) as [A B]. assert (A' : (IZR (Int_part (27 / 10)) < IZR 3)%R) by lra. assert (B' : (IZR 1 < IZR (Int_part (27 / 10)))%R) by lra.
  apply lt_IZR in A'. apply lt_IZR in B'. lia.
Qed.

(** A value of another type is not always refused: a fraction where a count is expected, null for any scalar, a number or a text where a list
    is expected (it becomes the empty list), an object where a list is expected (it becomes its values). *)
Theorem C117_types_refuted :
  (exists r z, (forall k, r <> IZR k) /\ as_int tz0 (JReal r) = Done z) /\
  (forall tz ti tr, as_int (T := R) tz JNull = Done 0%Z /\ as_double (T := R) JNull = Done 0%R /\ as_bool (T := R) JNull = Done false /\ as_string (T := R) ti tr JNull = Done ""%string) /\
  (forall z, z <> 0%Z -> as_bool (T := R) (JInt z) = Done true) /\
  (forall tz z s, from_array (T := R) (as_int tz) (JInt z) = Done [] /\ from_array (T := R) (as_int tz) (JStr s) = Done []) /\
  (exists m x y z, as_vec3 (T := R) (JObj m) = Done (x, y, z)).
Proof.
  split.
  { exists (27 / 10)%R, 2%Z. split; [|exact C117_int_ex]. intros k E. assert (H1 : (IZR 2 < IZR k)%R) by lra. assert (H2 : (IZR k < IZR 3)%R) by lra.
    apply lt_IZR in H1. apply lt_IZR in H2. lia. }
  split; [intros; repeat split|]. split; [intros z H; cbn; apply Z.eqb_neq in H; rewrite H; reflexivity|]. split; [intros; split; reflexivity|].
  exists [("x", JReal 1%R); ("y", JReal 2%R); ("z", JReal 3%R)]%string, 1%R, 2%R, 3%R. reflexivity.
Qed.
Print Assumptions C117_types_refuted.

(** Lists of numbers and texts for flags are refused: no text is a bool, no text is a number. *)
Theorem C117_refused : forall (T : Type) (NT : Num T) tz ti tr s l m,
  as_bool (T := T) (JStr s) = Thrown /\ as_int (T := T) tz (JStr s) = Thrown /\ as_double (T := T) (JStr s) = Thrown /\
  as_string (T := T) ti tr (JArr l) = Thrown /\ as_string (T := T) ti tr (JObj m) = Thrown /\ as_double (T := T) (JArr l) = Thrown /\
  (forall z, ~ (- 2 ^ 31 <= z < 2 ^ 31)%Z -> as_int (T := T) tz (JInt z) = Thrown).
Proof.
  intros. do 6 (split; [reflexivity|]). intros z H. unfold as_int, int_min, int_max.
  destruct ((- 2 ^ 31 <=? z)%Z && (z <=? 2 ^ 31 - 1)%Z) eqn:E; [|reflexivity]. apply andb_true_iff in E as [E1 E2]. apply Z.leb_le in E1, E2. lia.
Qed.
Print Assumptions C117_refused.

(** ** C118: the sections of the document *)
Theorem C118_basic : forall tz ti tr s m b, distinct m -> says_basic (T := R) s m b ->
  ((0 < b_dt_lower b <= b_dt_upper b)%R -> read_basic tz ti tr s (JObj m) = Done b) /\
  (~ (0 < b_dt_lower b <= b_dt_upper b)%R -> read_basic tz ti tr s (JObj m) = Thrown).
Proof.
  intros tz ti tr s m b D H. rewrite (basic_read tz ti tr s m b D H). cbn [nleb nltb R_Num].
  change (@nzero R R_Num) with 0%R.
  destruct (Rleb_spec (b_dt_lower b) 0) as [A|A]; destruct (Rltb_spec (b_dt_upper b) (b_dt_lower b)) as [B|B]; cbn [orb]; split; intros C; try reflexivity; exfalso; lra.
Qed.
Print Assumptions C118_basic.

(** An absent required member is an error. *)
Theorem C118_required : forall (T : Type) (NT : Num T) tz ti tr s (m : list (string * json T)),
  ~ In "n_steps"%string (map fst m) \/ ~ In "manip"%string (map fst m) -> forall b, read_basic tz ti tr s (JObj m) <> Done b.
Proof.
  intros T NT tz ti tr s m H b E. unfold read_basic in E. destruct H as [H|H].
  - rewrite (child_req_missing _ _ _ H) in E. discriminate.
  - apply rdo_done in E as (n & _ & E). rewrite (child_req_missing _ _ _ H) in E. discriminate.
Qed.
Print Assumptions C118_required.

Theorem C118_opt : forall (T : Type) (NT : Num T) tz df m (p : params T), distinct m -> says_opt df m p -> read_opt tz df (JObj m) = Done p.
Proof. intros T NT tz df m p D H. exact (opt_read tz df m p D H). Qed.
Print Assumptions C118_opt.

(** The initial trajectory is the one the section describes, with a column dt if time is used. *)
Theorem C118_init : forall (T : Type) (NT : Num T) ti tr n start m rows (dt : T) old use_time, distinct m -> (0 <= n)%Z -> says_init n start m rows dt ->
  exists i, read_init ti tr n (length start) old (JObj m) = Done i /\
    TrajoptModel.init_traj (i_type i) start (i_data i) n use_time (i_dt i) =
    Done {| TrajoptModel.m_rows := map (fun r => app r (if use_time then [dt] else [])) rows; TrajoptModel.m_cols := length start + (if use_time then 1 else 0) |}.
Proof.
  intros T NT ti tr n start m rows dt old use_time D N H. pose proof (init_read ti tr n start m rows dt old use_time D N H) as E.
  destruct (read_init ti tr n (length start) old (JObj m)) as [i| |]; cbn [rdo] in E; try discriminate. exists i. auto.
Qed.
Print Assumptions C118_init.

Lemma rows_refused {T} {NT : Num T} dof vs rows : Forall2 (is_list (is_num (T := T))) vs rows -> Exists (fun r => length r <> dof) rows ->
  forall pre, rmap (fun i => from_array_n as_double (Z.of_nat dof) (nth i (pre ++ vs) JNull)) (seq (length pre) (length rows)) = Thrown.
Proof.
  induction 1 as [|v r vs rows H H' IH]; intros K pre; [inversion K|]. cbn [length seq rmap].
  rewrite app_nth2, Nat.sub_diag by lia. cbn [nth]. unfold from_array_n at 1. rewrite (elements_len _ _ _ H).
  destruct (Z.eqb_spec (Z.of_nat (length r)) (Z.of_nat dof)) as [L|L]; [|reflexivity].
  rewrite (reads_list _ _ reads_num _ _ H). cbn [rdo]. apply Nat2Z.inj in L. inversion K as [? ? K'|? ? K']; subst; [contradiction|].
  specialize (IH K' (pre ++ [v])). rewrite app_length, <- app_assoc, Nat.add_1_r in IH. cbn [app] in IH. rewrite IH. reflexivity.
Qed.
(** A given trajectory with a wrong number of rows, or a row of a wrong length, is refused, and so is any other type. *)
Theorem C118_init_refused : forall (T : Type) (NT : Num T) ti tr n dof old m ty,
  distinct m -> states m "type" is_text ty -> (exists dt, states_or m "dt" (is_num (T := T)) none_ dt) ->
  (word ty "given_traj" -> (~ In "data"%string (map fst m) \/
     exists rows, states m "data" (is_list (is_list is_num)) rows /\ (Z.of_nat (length rows) <> n \/ Exists (fun r => length r <> dof) rows)) ->
   read_init ti tr n dof old (JObj m) = Thrown) /\
  (word ty "joint_interpolated" -> (~ In "endpoint"%string (map fst m) \/ exists e, states m "endpoint" (is_list is_num) e /\ length e <> dof) ->
   read_init ti tr n dof old (JObj m) = Thrown) /\
  (~ In (lower ty) ["stationary"; "given_traj"; "joint_interpolated"]%string -> read_init ti tr n dof old (JObj m) = Thrown).
Proof.
  intros T NT ti tr n dof old m ty D Ht [dt Hd]. unfold read_init. do 2 step_json D. split; [|split].
  - intros W H. rewrite (word_other _ _ "stationary" W) by discriminate. rewrite (word_iequals _ _ W).
    destruct H as [H|(rows & (v & V & H) & K)]; [rewrite (child_req_missing _ _ _ H); reflexivity|].
    rewrite (any_reads _ _ _ D V). cbn [rdo]. rewrite (elements_len _ _ _ H).
    destruct (Z.eqb_spec (Z.of_nat (length rows)) n) as [E|E]; [|reflexivity]. destruct K as [K|K]; [contradiction|]. cbn [negb].
    subst n. rewrite Nat2Z.id. destruct H as [vs rows H]. cbn [at_index rdo]. pose proof (rows_refused dof vs rows H K []) as G. cbn [app length] in G. rewrite G. reflexivity.
  - intros W H. rewrite (word_other _ _ "stationary" W) by discriminate. rewrite (word_other _ _ "given_traj" W) by discriminate. rewrite (word_iequals _ _ W).
    destruct H as [H|(e & He & K)]; [rewrite (child_req_missing _ _ _ H); reflexivity|]. step_json D.
    apply Nat.eqb_neq in K. rewrite K. reflexivity.
  - intros N. unfold iequals. change (lower "stationary") with "stationary"%string. change (lower "given_traj") with "given_traj"%string. change (lower "joint_interpolated") with "joint_interpolated"%string.
    destruct (String.eqb_spec (lower ty) "stationary") as [E|_]; [destruct N; rewrite E; cbn; auto|].
    destruct (String.eqb_spec (lower ty) "given_traj") as [E|_]; [destruct N; rewrite E; cbn; auto|].
    destruct (String.eqb_spec (lower ty) "joint_interpolated") as [E|_]; [destruct N; rewrite E; cbn; auto|]. reflexivity.
Qed.
Print Assumptions C118_init_refused.

(** Members of other names in basic_info and opt_info make no difference ... *)
Theorem C118_unknown : forall (T : Type) (NT : Num T) tz ti tr s df n w (m : list (string * json T)),
  (~ In n ["n_steps"; "manip"; "fixed_timesteps"; "fixed_dofs"; "convex_solver"; "dt_lower_lim"; "dt_upper_lim"; "use_time"]%string ->
   read_basic tz ti tr s (JObj ((n, w) :: m)) = read_basic tz ti tr s (JObj m)) /\
  (~ In n ["improve_ratio_threshold"; "min_trust_box_size"; "min_approx_improve"; "min_approx_improve_frac"; "max_iter"; "trust_shrink_ratio";
           "trust_expand_ratio"; "cnt_tolerance"; "max_merit_coeff_increases"; "merit_coeff_increase_ratio"; "max_time"; "initial_merit_error_coeff";
           "inflate_constraints_individually"; "trust_box_size"]%string ->
   read_opt tz df (JObj ((n, w) :: m)) = read_opt tz df (JObj m)) /\
  (~ In n ["basic_info"; "opt_info"; "costs"; "constraints"; "init_info"]%string ->
   forall groups, read_problem tz ti tr groups df (JObj ((n, w) :: m)) = read_problem tz ti tr groups df (JObj m)).
Proof.
  intros T NT tz ti tr s df n w m.
  assert (C : forall A (rd : json T -> run A) k d, k <> n -> child rd k d (JObj ((n, w) :: m)) = child rd k d (JObj m)).
  { intros A rd k d N. unfold child. cbn [member rdo lookup]. apply String.eqb_neq in N. rewrite N. reflexivity. }
  assert (Q : forall A (rd : json T -> run A) k, k <> n -> child_req rd k (JObj ((n, w) :: m)) = child_req rd k (JObj m)).
  { intros A rd k N. unfold child_req. cbn [member rdo lookup]. apply String.eqb_neq in N. rewrite N. reflexivity. }
  split; [|split].
  - intros N. unfold read_basic. repeat (rewrite C || rewrite Q); try reflexivity; intros <-; apply N; cbn; auto 20.
  - intros N. unfold read_opt. repeat (rewrite C || rewrite Q); try reflexivity; intros <-; apply N; cbn; auto 20.
  - intros N groups. unfold read_problem, section.
    rewrite Q, C by (intros <-; apply N; cbn; auto 20).
    destruct (child_req _ "basic_info" (JObj m)) as [b| |]; cbn [rdo]; try reflexivity. destruct (child _ "opt_info" df (JObj m)); cbn [rdo]; try reflexivity.
    destruct (groups (b_manip b)) as [g|]; [|reflexivity]. repeat (rewrite C || rewrite Q); try reflexivity; intros <-; apply N; cbn; auto 20.
Qed.
Print Assumptions C118_unknown.


(** for the examples *)
Ltac typed := first
  [ apply is_text_ | apply is_flag_ | apply is_int_; lia | apply is_num_real | apply is_num_int | constructor; repeat constructor ].
Ltac stated := eexists; split; [cbn [In]; repeat (first [left; reflexivity | right])|first [typed | eexists; split; [typed|reflexivity]]].
Ltac absent := left; split; [cbn; intuition discriminate|reflexivity].
Ltac says := first [absent | right; stated | stated].
Ltac nodup := unfold distinct; cbn; repeat (constructor; [cbn; intuition discriminate|]); constructor.

Definition ex_basic (more : list (string * json R)) : list (string * json R) := [("n_steps", JInt 3); ("manip", JStr "arm")]%string ++ more.
Definition ex_b (lo up : R) (k : nat) : basic R :=
  {| b_steps := 3; b_manip := "arm"%string; b_fixed_timesteps := []; b_fixed_dofs := []; b_solver := k; b_dt_lower := lo; b_dt_upper := up; b_time := false |}.
Ltac basics := unfold says_basic, ex_basic, ex_b; cbn [b_steps b_manip b_fixed_timesteps b_fixed_dofs b_solver b_dt_lower b_dt_upper b_time app];
  repeat (split; [says|]); says.

(** ... so a misspelt one goes unnoticed. *)
Theorem C118_unknown_refuted : forall tz ti tr, exists m b, In ("use_tim"%string, JBool true) m /\ read_basic (T := R) tz ti tr 4 (JObj m) = Done b /\ b_time b = false.
Proof.
  intros. exists (ex_basic [("use_tim"%string, JBool true)]), (ex_b 1 1 4). split; [cbn; auto|]. split; [|reflexivity].
  apply C118_basic; [nodup|basics|cbn; lra].
Qed.
Print Assumptions C118_unknown_refuted.

(** A lower limit above 1 or an upper limit below 1 cannot be given alone: the other one is taken to be 1. *)
Theorem C118_limits_refuted : forall tz ti tr (x : R), (1 < x)%R ->
  read_basic (T := R) tz ti tr 4 (JObj (ex_basic [("dt_lower_lim"%string, JReal x)])) = Thrown /\
  read_basic (T := R) tz ti tr 4 (JObj (ex_basic [("dt_upper_lim"%string, JReal (/ x)%R)])) = Thrown.
Proof.
  intros tz ti tr x X. split; [apply (C118_basic tz ti tr 4 _ (ex_b x 1 4))|apply (C118_basic tz ti tr 4 _ (ex_b 1 (/ x) 4))]; try nodup; try basics; cbn.
  - lra.
  - pose proof (Rinv_lt_contravar 1 x ltac:(lra) X) as H. rewrite Rinv_1 in H. lra.
Qed.
Print Assumptions C118_limits_refuted.

(** "convex_solver": "OSQP" does not select OSQP (see C46 on the table of names). *)
Theorem C118_solver_refuted : forall tz ti tr, exists m b, In ("convex_solver"%string, JStr (PipeModel.kind_name PipeModel.OSQP)) m /\
  read_basic (T := R) tz ti tr 4 (JObj m) = Done b /\ b_solver b = PipeModel.kind_value PipeModel.QPOASES.
Proof.
  intros. exists (ex_basic [("convex_solver"%string, JStr "OSQP"%string)]), (ex_b 1 1 2). split; [cbn; auto|]. split; [|reflexivity].
  apply C118_basic; [nodup|basics|cbn; lra].
Qed.
Print Assumptions C118_solver_refuted.

Example C118_basic_ex : read_basic (T := R) (fun _ => 0%Z) (fun _ => ""%string) (fun _ => ""%string) 4
  (JObj (ex_basic [("fixed_timesteps", JArr [JInt 0; JInt 2]); ("use_time", JBool true); ("dt_lower_lim", JReal (1 / 10)%R); ("dt_upper_lim", JInt 7)]%string)) =
  Done {| b_steps := 3; b_manip := "arm"%string; b_fixed_timesteps := [0; 2]%Z; b_fixed_dofs := []; b_solver := 4; b_dt_lower := (1 / 10)%R; b_dt_upper := 7%R; b_time := true |}.
Proof.
  apply C118_basic; [nodup| |cbn; lra]. unfold says_basic, ex_basic. cbn [b_steps b_manip b_fixed_timesteps b_fixed_dofs b_solver b_dt_lower b_dt_upper b_time app].
  split; [says|]. split; [says|]. split.
  { right. eexists. split; [cbn; auto|]. constructor. constructor; [constructor; lia|]. constructor; [constructor; lia|constructor]. }
  split; [says|]. split; [says|]. split; [says|]. split; [says|]. says.
Qed.
Example C118_init_ex : says_init (T := R) 2 [5%R; 6%R] [("type", JStr "Given_Traj"); ("data", JArr [JArr [JReal 1%R; JInt 2]; JArr [JInt 3; JInt 4]]); ("dt", JReal 9%R)]%string
  [[1%R; 2%R]; [3%R; 4%R]] 9%R.
Proof.
  apply says_given with (ty := "Given_Traj"%string).
  - says.
  - apply (word_upper "g"); [cbn; lia|]. do 5 apply word_same. apply (word_upper "t"); [cbn; lia|]. repeat apply word_same. apply word_nil.
  - says.
  - eexists. split; [cbn; auto|]. constructor. constructor; [|constructor; [|constructor]]; constructor.
    + constructor; [constructor|constructor; [exact (is_num_int 2)|constructor]].
    + constructor; [exact (is_num_int 3)|constructor; [exact (is_num_int 4)|constructor]].
  - reflexivity.
  - repeat constructor.
Qed.

(** ** C119: terms and the whole document *)
(** Every list of terms that is written as the schema says is read: in order, each one as what its type, its params and the defaults say. *)
Theorem C119_terms : forall (T : Type) (NT : Num T) tz ti tr kind n g v (ts : list (term T)), kind = 1%Z \/ kind = 2%Z ->
  is_list (says_term kind n g) v ts -> read_terms tz ti tr kind n g v = Done ts.
Proof.
  intros T NT tz ti tr kind n g v ts K H. apply (reads_list (read_term tz ti tr kind n g) (says_term kind n g)); [|exact H].
  intros w t W. apply term_read; assumption.
Qed.
Print Assumptions C119_terms.

(** The whole document.  Time is used if basic_info says so or one of the terms does. *)
Theorem C119_problem : forall tz ti tr groups df m b o g (cs ns : list (term R)) im rows dt start,
  distinct m -> says_problem groups df m b o g cs ns im ->
  (0 < b_dt_lower b <= b_dt_upper b)%R -> (0 <= b_steps b)%Z -> length start = g_dof g -> says_init (b_steps b) start im rows dt ->
  exists p, read_problem tz ti tr groups df (JObj m) = Done p /\
    q_opt p = o /\ q_costs p = cs /\ q_cnts p = ns /\ q_group p = g /\
    q_basic p = with_time b (b_time (q_basic p)) /\
    (b_time (q_basic p) = true <-> b_time b = true \/ Exists (fun t => (4 <= t_type t)%Z) (cs ++ ns)) /\
    TrajoptModel.init_traj (i_type (q_init p)) start (i_data (q_init p)) (b_steps b) (b_time (q_basic p)) (i_dt (q_init p)) =
    Done {| TrajoptModel.m_rows := map (fun r => app r (if b_time (q_basic p) then [dt] else [])) rows;
            TrajoptModel.m_cols := g_dof g + (if b_time (q_basic p) then 1 else 0) |}.
Proof.
  intros tz ti tr groups df m b o g cs ns im rows dt start D (H1 & H2 & H3 & H4 & H5 & H6 & Di) L S N I.
  assert (R1 : forall v, is_object (says_basic 4) v b -> read_basic tz ti tr (PipeModel.kind_value PipeModel.AUTO_SOLVER) v = Done b)
    by (intros v (bm & -> & Db & B); apply C118_basic; assumption).
  assert (R2 : reads (read_opt tz df) (is_object (says_opt df))) by (intros v x (om & -> & Do & B); apply C118_opt; assumption).
  assert (R4 : reads (read_terms tz ti tr TrajoptModel.TT_COST (b_steps b) g) (is_list (says_term 1 (b_steps b) g)))
    by (intros v x B; apply C119_terms; auto).
  assert (R5 : reads (read_terms tz ti tr TrajoptModel.TT_CNT (b_steps b) g) (is_list (says_term 2 (b_steps b) g)))
    by (intros v x B; apply C119_terms; auto).
  destruct (C118_init R _ ti tr (b_steps b) start im rows dt no_data (b_time b || existsb uses_time (cs ++ ns)) Di S I) as (i & Ri & Ti).
  unfold read_problem.
  assert (Q1 : child_req (read_basic tz ti tr (PipeModel.kind_value PipeModel.AUTO_SOLVER)) "basic_info" (JObj m) = Done b).
  { destruct H1 as (v & V & B). unfold child_req. cbn [member rdo]. rewrite (lookup_in _ _ _ D V). apply R1, B. }
  rewrite Q1. cbn [rdo]. unfold section. rewrite (child_states _ _ _ _ _ _ D R2 H2). cbn [rdo]. rewrite H3.
  rewrite (child_states _ _ _ _ _ _ D R4 H4). cbn [rdo]. rewrite (child_states _ _ _ _ _ _ D R5 H5). cbn [rdo].
  assert (Q6 : child_req (read_init ti tr (b_steps b) (g_dof g) no_data) "init_info" (JObj m) = Done i).
  { unfold child_req. cbn [member rdo]. rewrite (lookup_in _ _ _ D H6), <- N. exact Ri. }
  rewrite Q6. cbn [rdo]. eexists. split; [reflexivity|]. cbn [q_opt q_costs q_cnts q_group q_basic q_init with_time b_time].
  repeat (split; [reflexivity|]). split; [|rewrite <- N; exact Ti].
  assert (TY : forall t, In t (cs ++ ns) -> uses_time t = true <-> (4 <= t_type t)%Z).
  { assert (G : forall kind v t, kind = 1%Z \/ kind = 2%Z -> says_term (T := R) kind (b_steps b) g v t -> uses_time t = true <-> (4 <= t_type t)%Z).
    { intros kind v t K B. destruct B as [m' ty ut pm bd nm]. unfold uses_time. cbn [t_type]. destruct K as [->| ->], ut; cbn; split; intros; try reflexivity; try discriminate; lia. }
    assert (G' : forall kind s ts t, kind = 1%Z \/ kind = 2%Z -> states_or m s (is_list (says_term (T := R) kind (b_steps b) g)) [] ts -> In t ts -> uses_time t = true <-> (4 <= t_type t)%Z).
    { intros kind s ts t K [[_ ->]|(v & _ & B)] X; [destruct X|]. destruct B as [vs ts B]. clear -G K B X.
      induction B as [|v y vs ts B1 B2 IH]; [destruct X|]. destruct X as [->|X]; [eapply G; eassumption|apply IH; exact X]. }
    intros t X. apply in_app_or in X as [X|X]; [eapply (G' 1%Z)|eapply (G' 2%Z)]; eauto. }
  rewrite orb_true_iff, existsb_exists, Exists_exists. split; (intros [X|(t & X & Y)]; [left; exact X|right; exists t; split; [exact X|apply TY; assumption]]).
Qed.
Print Assumptions C119_problem.

(** What is accepted fits the problem and the manipulator, whatever the document looks like. *)
Theorem C119_checks : forall tz ti tr kind n g v (t : term R), read_term tz ti tr kind n g v = Done t ->
  match t_body t with
  | BPose dyn p => pose_fits dyn g p
  | BVel p => vel_fits n g p
  | BColl p => coll_fits n p /\ cl_buffer p = (5 / 10)%R
  | _ => True
  end.
Proof.
  intros tz ti tr kind n g v t H. unfold read_term in H. apply rdo_done in H as (ty & _ & H). apply rdo_done in H as (ut & _ & H).
  destruct (find_maker ty makers) as [mk|]; [|discriminate]. apply rdo_done in H as (b & B & H). apply rdo_done in H as (nm & _ & H). injection H as <-. cbn [t_body].
  unfold read_body in B. apply rdo_done in B as (pv & _ & B). destruct mk; apply rdo_done in B as (p & B & E); injection E as <-; try exact I.
  - unfold read_pose in B. apply only_members_done in B as [B _].
    do 9 (apply rdo_done in B as (? & _ & B)).
    destruct (g_has g _) eqn:G1 in B; [|discriminate]. destruct (g_has g _) eqn:G2 in B; [|discriminate]. cbn [negb] in B.
    destruct (if dynamic then _ else _) eqn:G3 in B; [discriminate|]. injection B as <-. unfold pose_fits. cbn [ps_source ps_target].
    split; [assumption|]. split; [assumption|]. destruct dynamic; [apply negb_false_iff, andb_true_iff in G3; exact G3|]. apply eqb_false_iff, G3.
  - unfold read_vel in B. apply only_members_done in B as [B _].
    do 3 (apply rdo_done in B as (? & _ & B)). destruct (TrajoptModel.cart_vel_accepts _ _ _) eqn:G1 in B; [|discriminate]. cbn [negb] in B.
    apply rdo_done in B as (? & _ & B). destruct (g_active g _) eqn:G2 in B; [|discriminate]. injection B as <-. unfold vel_fits. cbn.
    unfold TrajoptModel.cart_vel_accepts in G1. rewrite !andb_true_iff, !Z.leb_le, !Z.ltb_lt in G1. split; [lia|]. split; [lia|assumption].
  - unfold read_coll in B. apply only_members_done in B as [B W].
    apply rdo_done in B as (cty & _ & B). apply rdo_done in B as (cf & C0 & B). apply rdo_done in B as (cl & _ & B). apply rdo_done in B as (lvs & _ & B). apply rdo_done in B as (bf & BF & B).
    destruct (nzero <=? lvs)%num eqn:G1; [|discriminate]. cbn [negb] in B.
    destruct ((0 <=? cf) && (cf <? n))%Z eqn:G2; [|discriminate]. destruct ((cf <=? cl) && (cl <? n))%Z eqn:G3; [|discriminate]. destruct (cty <=? 4)%Z eqn:G4; [|discriminate].
    destruct (nzero <=? bf)%num eqn:G5; [|discriminate]. cbn [negb] in B. apply rdo_done in B as (fs & _ & B).
    destruct (forallb _ fs) eqn:G6; [|discriminate]. cbn [negb] in B. apply rdo_done in B as (ct & _ & B).
    destruct ((0 <=? ct) && (ct <? 3))%Z eqn:G7; [|discriminate]. cbn [negb] in B. do 3 (apply rdo_done in B as (? & _ & B)). injection B as <-.
    unfold coll_fits. cbn [cl_first cl_last cl_type cl_contact cl_fixed cl_lvs cl_buffer].
    apply andb_true_iff in G2 as [G2 G2']. apply andb_true_iff in G3 as [G3 G3']. apply andb_true_iff in G7 as [G7 G7'].
    apply Z.leb_le in G2, G3, G4, G7. apply Z.ltb_lt in G2', G3', G7'. rewrite forallb_forall in G6.
    split.
    + split; [lia|]. split; [lia|]. split; [lia|]. split; [lia|]. split; [|split; assumption].
      intros step X. specialize (G6 step X). apply negb_true_iff, orb_false_iff in G6. rewrite !Z.ltb_ge in G6. lia.
    + destruct pv as [| | | | | |m']; try discriminate C0; [injection BF as <-; unfold Rdec; cbn; field|].
      specialize (W m' eq_refl). unfold child in BF. cbn [member rdo] in BF. rewrite lookup_out in BF; [injection BF as <-; unfold Rdec; cbn; field|].
      intros X. apply W in X. cbn in X. repeat (destruct X as [X|X]; [discriminate|]). exact X.
Qed.
Print Assumptions C119_checks.

(** The names in params are checked: a term with any other name than those of its type is refused. *)
Definition param_names (ty : string) : list string :=
  if String.eqb ty "dynamic_cart_pose" || String.eqb ty "cart_pose" then pose_names
  else if String.eqb ty "cart_vel" then ["first_step"; "last_step"; "max_displacement"; "link"]%string
  else if String.eqb ty "joint_pos" || String.eqb ty "joint_jerk" then joint_names TrajCostModel.Pos
  else if String.eqb ty "joint_vel" || String.eqb ty "joint_acc" then joint_names TrajCostModel.Vel
  else if String.eqb ty "collision" then coll_names
  else if String.eqb ty "total_time" then ["coeff"; "limit"]%string
  else [].
Theorem C119_names : forall (T : Type) (NT : Num T) tz ti tr kind n g m ty pm, distinct m -> states m "type" is_text ty -> In ("params"%string, JObj pm) m ->
  ~ within pm (param_names ty) -> forall t : term T, read_term tz ti tr kind n g (JObj m) <> Done t.
Proof.
  intros T NT tz ti tr kind n g m ty pm D H P W t E. apply W. clear W. unfold read_term in E.
  rewrite (child_req_states _ _ _ _ _ D (reads_text ti tr) H) in E. cbn [rdo] in E. apply rdo_done in E as (ut & _ & E).
  destruct (find_maker ty makers) as [mk|] eqn:M; [|discriminate]. apply rdo_done in E as (b & B & _). unfold read_body in B.
  rewrite (any_reads _ _ _ D P) in B. cbn [rdo] in B.
  cbn [find_maker makers] in M. unfold param_names.
  repeat match type of M with
         | (if String.eqb ty ?s then _ else _) = _ => destruct (String.eqb_spec ty s) as [->|]; [injection M as <-; cbn [String.eqb Ascii.eqb Bool.eqb orb andb] in *; apply rdo_done in B as (p & B & _);
             unfold read_pose, read_vel, read_joint, read_coll, read_time in B; cbn [joint_kind] in B;
             apply only_members_done in B as [_ W]; exact (W pm eq_refl)|]
         end.
  discriminate.
Qed.
Print Assumptions C119_names.

(** Costs and constraints are read alike. *)
Definition retype (t : term R) (f : Z -> Z) : term R :=
  {| t_name := t_name t; t_type := f (t_type t);
     t_body := match t_body t with
               | BJoint o p => BJoint o {| TrajoptModel.jt_type := f (TrajoptModel.jt_type p); TrajoptModel.jt_coeffs := TrajoptModel.jt_coeffs p; TrajoptModel.jt_targets := TrajoptModel.jt_targets p;
                                           TrajoptModel.jt_uppers := TrajoptModel.jt_uppers p; TrajoptModel.jt_lowers := TrajoptModel.jt_lowers p; TrajoptModel.jt_first := TrajoptModel.jt_first p;
                                           TrajoptModel.jt_last := TrajoptModel.jt_last p |}
               | b => b
               end |}.
Theorem C119_sides : forall tz ti tr n g v (t : term R), read_term tz ti tr 1 n g v = Done t <-> 
  (t_type t = 1%Z \/ t_type t = 5%Z) /\ read_term tz ti tr 2 n g v = Done (retype t Z.succ) /\ (forall o p, t_body t = BJoint o p -> TrajoptModel.jt_type p = t_type t).
Proof.
  intros tz ti tr n g v t. unfold read_term.
  destruct (child_req (as_string ti tr) "type" v) as [ty| |]; cbn [rdo]; [|split; [discriminate|intros (_ & H & _); discriminate]..].
  destruct (child as_bool "use_time" false v) as [ut| |]; cbn [rdo]; [|split; [discriminate|intros (_ & H & _); discriminate]..].
  destruct (find_maker ty makers) as [mk|]; [|split; [discriminate|intros (_ & H & _); discriminate]].
  set (t1 := if ut then Z.lor 1 TrajoptModel.TT_USE_TIME else 1%Z). set (t2 := if ut then Z.lor 2 TrajoptModel.TT_USE_TIME else 2%Z).
  assert (E : t2 = Z.succ t1) by (destruct ut; reflexivity). assert (F : t1 = 1%Z \/ t1 = 5%Z) by (destruct ut; cbn; auto).
  destruct (child (as_string ti tr) "name" ty v) as [nm| |];
    [|split; [intros H; apply rdo_done in H as (? & _ & H); discriminate H|intros (_ & H & _); apply rdo_done in H as (? & _ & H); discriminate H]..].
  cbn [rdo]. unfold read_body. destruct (child_req (fun p => Done p) "params" v) as [pv| |]; cbn [rdo]; [|split; [discriminate|intros (_ & H & _); discriminate]..].
  assert (X : forall (r : run (body R)) (q : forall o p, r <> Done (BJoint o p)),
    rdo r (fun b => Done {| t_name := nm; t_type := t1; t_body := b |}) = Done t <->
    (t_type t = 1%Z \/ t_type t = 5%Z) /\ rdo r (fun b => Done {| t_name := nm; t_type := t2; t_body := b |}) = Done (retype t Z.succ) /\
    (forall o p, t_body t = BJoint o p -> TrajoptModel.jt_type p = t_type t)).
  { intros r q. destruct r as [b| |]; cbn [rdo]; [|split; [discriminate|intros (_ & H & _); discriminate]..].
    destruct t as [tn tt tb]. unfold retype. cbn [t_name t_type t_body]. rewrite E. split.
    - intros H. injection H as <- <- <-. split; [exact F|]. split; [destruct b; try reflexivity; destruct (q _ _ eq_refl)|]. intros o p ->. destruct (q _ _ eq_refl).
    - intros (_ & H & _). injection H as <- H1 H2. assert (t1 = tt) by lia. subst tt. f_equal. f_equal.
      destruct tb; try assumption; subst b. destruct (q _ _ eq_refl). }
  destruct mk.
  - destruct (read_pose tz ti tr dynamic n g pv); cbn [rdo]; [apply (X (Done _)); discriminate|apply (X Thrown); discriminate|apply (X Assert); discriminate].
  - destruct (read_vel tz ti tr n g pv); cbn [rdo]; [apply (X (Done _)); discriminate|apply (X Thrown); discriminate|apply (X Assert); discriminate].
  - unfold read_joint, only_members.
    destruct (child_req (from_array as_double) "targets" pv); cbn [rdo]; [|split; [discriminate|intros (_ & H & _); discriminate]..].
    destruct (child (from_array as_double) "coeffs" _ pv); cbn [rdo]; [|split; [discriminate|intros (_ & H & _); discriminate]..].
    destruct (child (from_array as_double) "upper_tols" _ pv); cbn [rdo]; [|split; [discriminate|intros (_ & H & _); discriminate]..].
    destruct (child (from_array as_double) "lower_tols" _ pv); cbn [rdo]; [|split; [discriminate|intros (_ & H & _); discriminate]..].
    destruct (child (as_int tz) "first_step" _ pv); cbn [rdo]; [|split; [discriminate|intros (_ & H & _); discriminate]..].
    destruct (child (as_int tz) "last_step" _ pv); cbn [rdo]; [|split; [discriminate|intros (_ & H & _); discriminate]..].
    destruct (names_ok _ pv); cbn [rdo]; [|split; [discriminate|intros (_ & H & _); discriminate]].
    destruct t as [tn tt tb]. unfold retype. cbn [t_name t_type t_body]. rewrite E. split.
    + intros H. injection H as <- <- <-. split; [exact F|]. split; [reflexivity|]. intros o' p [= <- <-]. reflexivity.
    + intros (_ & H & J). injection H as <- H1 H2. assert (t1 = tt) by lia. subst tt. f_equal. f_equal.
      destruct tb as [| |o' [jt jc jg ju jl jf je]| |]; try discriminate. specialize (J _ _ eq_refl). cbn in J. subst jt. cbn in H2. injection H2 as <- <- <- <- <- <- <-. reflexivity.
  - destruct (read_coll tz ti tr n pv); cbn [rdo]; [apply (X (Done _)); discriminate|apply (X Thrown); discriminate|apply (X Assert); discriminate].
  - destruct (read_time pv) as [[]| |]; cbn [rdo]; [apply (X (Done _)); discriminate|apply (X Thrown); discriminate|apply (X Assert); discriminate].
Qed.
Print Assumptions C119_sides.

(** Offsets of pose terms: a unit quaternion gives the rotation v -> q v q*, ... *)
Definition qmul (p q : R * R * R * R) : R * R * R * R :=
  let '(w1, x1, y1, z1) := p in let '(w2, x2, y2, z2) := q in
  (w1 * w2 - x1 * x2 - y1 * y2 - z1 * z2, w1 * x2 + x1 * w2 + y1 * z2 - z1 * y2,
   w1 * y2 - x1 * z2 + y1 * w2 + z1 * x2, w1 * z2 + x1 * y2 - y1 * x2 + z1 * w2)%R.
Definition qconj (q : R * R * R * R) : R * R * R * R := let '(w, x, y, z) := q in (w, - x, - y, - z)%R.
Definition mat_vec (m : list (list R)) (v : R * R * R) : list R :=
  let '(a, b, c) := v in map (fun r => (nth 0 r 0 * a + nth 1 r 0 * b + nth 2 r 0 * c)%R) m.
Theorem C119_rotation : forall w x y z a b c, (w * w + x * x + y * y + z * z = 1)%R ->
  let '(r, p1, p2, p3) := qmul (qmul (w, x, y, z) (0%R, a, b, c)) (qconj (w, x, y, z)) in
  r = 0%R /\ mat_vec (quat_matrix (w, x, y, z)) (a, b, c) = [p1; p2; p3].
Proof.
  intros w x y z a b c U. cbn. change (@none_ R R_Num) with 1%R. split; [ring|]. rewrite <- U. f_equal; [ring|]. f_equal; [ring|]. f_equal. ring.
Qed.
Print Assumptions C119_rotation.
Example C119_rotation_ex : mat_vec (quat_matrix (0%R, 0%R, 1%R, 0%R)) (1%R, 2%R, 3%R) = [(-1)%R; 2%R; (-3)%R]. (* the offset of numerical_ik1.json *)
Proof. cbn. f_equal; [ring|]. f_equal; [ring|]. f_equal. ring. Qed.

(** ... but nothing checks or normalises it: there are documents whose offset stretches. *)
Definition ex_group : group := {| g_dof := 2; g_has := fun _ => true; g_active := fun l => String.eqb l "tool" |}.
Definition ex_pose (more : list (string * json R)) : list (string * json R) := [("source_frame", JStr "tool"); ("target_frame", JStr "base")]%string ++ more.
Definition ex_offset (q : R * R * R * R) : offset := {| o_linear := quat_matrix q; o_translation := (0, 0, 0)%R |}.
Definition ex_unit : R * R * R * R := (1, 0, 0, 0)%R.
Definition ex_pose_term (step : Z) (q : R * R * R * R) : pose_term R :=
  {| ps_timestep := step; ps_pos := (1, 1, 1)%R; ps_rot := (1, 1, 1)%R; ps_source := "tool"%string; ps_target := "base"%string;
     ps_source_offset := ex_offset q; ps_target_offset := ex_offset ex_unit |}.
Ltac names_in := let n := fresh in let H := fresh in intros n H; cbn in H; cbn; tauto.
Theorem C119_rotation_refuted : forall tz ti tr, exists m p,
  read_pose (T := R) tz ti tr false 3 ex_group (JObj m) = Done p /\
  mat_vec (o_linear (ps_source_offset p)) (0, 1, 0)%R = [0; -1; 2]%R.
Proof.
  intros. exists (ex_pose [("source_frame_offset_wxyz"%string, JArr [JInt 1; JInt 1; JInt 0; JInt 0])]), (ex_pose_term 2 (1, 1, 0, 0)%R). split.
  - apply pose_read; [nodup| |].
    + unfold says_pose, says_offset, ex_pose, ex_pose_term, ex_offset. cbn [ps_timestep ps_pos ps_rot ps_source ps_target ps_source_offset ps_target_offset o_linear o_translation app].
      split; [names_in|]. split; [says|]. split; [says|]. split; [says|]. split; [says|]. split; [says|]. split; (split; [says|]).
      * exists (1, 1, 0, 0)%R. split; [|reflexivity]. right. eexists. split; [cbn; auto|]. constructor. constructor.
        constructor; [exact (is_num_int 1)|]. constructor; [exact (is_num_int 1)|]. constructor; [exact (is_num_int 0)|]. constructor; [exact (is_num_int 0)|constructor].
      * exists ex_unit. split; [says|reflexivity].
    + split; [reflexivity|]. split; [reflexivity|]. cbn. discriminate.
  - cbn. f_equal; [ring|]. f_equal; [ring|]. f_equal. ring.
Qed.
Print Assumptions C119_rotation_refuted.

(** The time step of a pose term is not compared with n_steps, and negative evaluator types are accepted. *)
Theorem C119_steps_refuted : forall tz ti tr,
  (exists m p, read_pose (T := R) tz ti tr false 3 ex_group (JObj m) = Done p /\ ~ (0 <= ps_timestep p < 3)%Z) /\
  (exists m p, read_coll (T := R) tz ti tr 3 (JObj m) = Done p /\ (cl_type p < 0)%Z).
Proof.
  intros. split.
  - exists (ex_pose [("timestep"%string, JInt 1000)]), (ex_pose_term 1000 ex_unit). split; [|cbn; lia]. apply pose_read; [nodup| |].
    + unfold says_pose, says_offset, ex_pose, ex_pose_term, ex_offset. cbn [ps_timestep ps_pos ps_rot ps_source ps_target ps_source_offset ps_target_offset o_linear o_translation app].
      split; [names_in|]. split; [says|]. split; [says|]. split; [says|]. split; [says|]. split; [says|]. split; (split; [says|]); exists ex_unit; (split; [says|reflexivity]).
    + split; [reflexivity|]. split; [reflexivity|]. cbn. discriminate.
  - exists [("evaluator_type", JInt (-3)); ("coeffs", JInt 20); ("dist_pen", JReal 1%R)]%string.
    exists {| cl_type := (-3)%Z; cl_first := 0; cl_last := 2; cl_lvs := ndec 5 (-1); cl_buffer := ndec 5 (-1); cl_fixed := []; cl_contact := 2;
              cl_coeff := 20%R; cl_margin := 1%R; cl_pairs := [] |}. split; [|cbn; lia]. apply coll_read; [nodup| |].
    + unfold says_coll. cbn [cl_type cl_first cl_last cl_lvs cl_buffer cl_fixed cl_contact cl_coeff cl_margin cl_pairs].
      split; [names_in|]. split; [says|]. split; [says|]. split; [says|]. split; [says|]. split; [reflexivity|]. split; [says|]. split; [says|].
      split; [eexists; split; [cbn; auto|exact (is_num_int 20)]|]. split; [says|]. exists []. split; [says|reflexivity].
    + unfold coll_fits. cbn [cl_type cl_first cl_last cl_lvs cl_buffer cl_fixed cl_contact].
      assert (P : (@nzero R R_Num <=? ndec 5 (-1))%num = true) by (cbn [nleb nzero ndec R_Num]; destruct (Rleb_spec 0 (Rdec 5 (-1))) as [|H]; [reflexivity|unfold Rdec in H; simpl in H; lra]).
      split; [lia|]. split; [lia|]. split; [lia|]. split; [lia|]. split; [intros s []|]. split; exact P.
Qed.
Print Assumptions C119_steps_refuted.

(** The parameters under opt_info are stored with the description but OptimizeProblem does not get them: its parameters are the same for every document. *)
Theorem C118_optimizer : forall (T : Type) (NT : Num T) tz ti tr groups df v (p : params T), run_params tz ti tr groups df v = Done p ->
  p_max_iter p = 40%Z /\ p_min_approx_improve_frac p = ndec 1 (-3) /\ p_improve_ratio_threshold p = ndec 2 (-1) /\ p_initial_merit_error_coeff p = nofZ 20 /\
  p_min_trust_box_size p = p_min_trust_box_size df /\ p_min_approx_improve p = p_min_approx_improve df /\ p_trust_shrink_ratio p = p_trust_shrink_ratio df /\
  p_trust_expand_ratio p = p_trust_expand_ratio df /\ p_cnt_tolerance p = p_cnt_tolerance df /\ p_max_merit_coeff_increases p = p_max_merit_coeff_increases df /\
  p_max_qp_solver_failures p = p_max_qp_solver_failures df /\ p_merit_coeff_increase_ratio p = p_merit_coeff_increase_ratio df /\ p_max_time p = p_max_time df /\
  p_inflate_individually p = p_inflate_individually df /\ p_trust_box_size p = p_trust_box_size df.
Proof. intros T NT tz ti tr groups df v p H. unfold run_params in H. apply rdo_done in H as (q & _ & H). injection H as <-. cbn. tauto. Qed.
Print Assumptions C118_optimizer.

(** A document with one cost on the total time, which uses time. *)
Definition ex_term : list (string * json R) := [("type", JStr "total_time"); ("use_time", JBool true); ("params", JObj [("limit", JInt 4)])]%string.
Definition ex_doc : list (string * json R) :=
  [("basic_info", JObj (ex_basic [])); ("costs", JArr [JObj ex_term]); ("init_info", JObj [("type", JStr "stationary")])]%string.
Example C119_problem_ex : forall df, distinct ex_doc /\
  says_problem (fun _ => Some ex_group) df ex_doc (ex_b 1 1 4) df ex_group [{| t_name := "total_time"%string; t_type := 5; t_body := BTime 1%R 4%R |}] [] [("type", JStr "stationary")]%string /\
  says_init 3 [0%R; 7%R] [("type", JStr "stationary")]%string [[0; 7]; [0; 7]; [0; 7]]%R 1%R.
Proof.
  intros df. split; [nodup|]. split.
  - unfold says_problem. split.
    { eexists. split; [cbn; auto|]. eexists. split; [reflexivity|]. split; [nodup|basics]. }
    split; [absent|]. split; [reflexivity|]. split.
    { right. eexists. split; [cbn; auto|]. constructor. constructor; [|constructor].
      apply (says_term_ 1 3 ex_group ex_term "total_time" true [("limit"%string, JInt 4)] (BTime 1%R 4%R) "total_time").
      - nodup.
      - says.
      - says.
      - cbn. auto.
      - nodup.
      - constructor. split; [names_in|]. split; [absent|]. right. eexists. split; [cbn; auto|]. exact (is_num_int 4).
      - absent. }
    split; [absent|]. split; [cbn; auto|nodup].
  - apply says_stationary with (ty := "stationary"%string) (dt := 1%R).
    + says.
    + repeat apply word_same. apply word_nil.
    + absent.
Qed.

(** Without opt_info the problem has the parameters documented for the optimizer. *)
Theorem C118_defaults : forall tz ti tr groups lowest largest m (q : problem R), ~ In "opt_info"%string (map fst m) ->
  read_problem tz ti tr groups (default_params lowest largest) (JObj m) = Done q ->
  (p_improve_ratio_threshold (q_opt q) = 25 / 100 /\ p_min_trust_box_size (q_opt q) = 1 / 10000 /\ p_min_approx_improve (q_opt q) = 1 / 10000 /\
   p_min_approx_improve_frac (q_opt q) = lowest /\ p_max_iter (q_opt q) = 50%Z /\ p_trust_shrink_ratio (q_opt q) = 1 / 10 /\ p_trust_expand_ratio (q_opt q) = 15 / 10 /\
   p_cnt_tolerance (q_opt q) = 1 / 10000 /\ p_max_merit_coeff_increases (q_opt q) = 5 /\ p_max_qp_solver_failures (q_opt q) = 3%Z /\
   p_merit_coeff_increase_ratio (q_opt q) = 10 /\ p_max_time (q_opt q) = largest /\ p_initial_merit_error_coeff (q_opt q) = 10 /\
   p_inflate_individually (q_opt q) = true /\ p_trust_box_size (q_opt q) = 1 / 10)%R.
Proof.
  intros tz ti tr groups lowest largest m q N H. unfold read_problem in H. apply rdo_done in H as (b & _ & H). apply rdo_done in H as (o & O & H).
  unfold section, child in O. cbn [member rdo] in O. rewrite lookup_out in O by assumption. injection O as <-.
  destruct (groups (b_manip b)); [|discriminate]. do 3 (apply rdo_done in H as (? & _ & H)). injection H as <-. cbn [q_opt default_params
    p_improve_ratio_threshold p_min_trust_box_size p_min_approx_improve p_min_approx_improve_frac p_max_iter p_trust_shrink_ratio p_trust_expand_ratio p_cnt_tolerance
    p_max_merit_coeff_increases p_max_qp_solver_failures p_merit_coeff_increase_ratio p_max_time p_initial_merit_error_coeff p_inflate_individually p_trust_box_size].
  assert (D : forall a b, ndec (T := R) a b = Rdec a b) by reflexivity. rewrite !D. unfold Rdec. cbn.
  change (Pos.to_nat 4) with 4%nat. change (Pos.to_nat 2) with 2%nat. change (Pos.to_nat 1) with 1%nat. cbn [pow].
  do 14 (split; [reflexivity || lra|]). lra.
Qed.
Print Assumptions C118_defaults.

(** A manipulator the environment does not have is refused. *)
Theorem C119_manip : forall tz ti tr groups df m bm b, distinct m -> In ("basic_info"%string, JObj bm) m -> distinct bm ->
  says_basic (T := R) (PipeModel.kind_value PipeModel.AUTO_SOLVER) bm b -> ~ In "opt_info"%string (map fst m) ->
  groups (b_manip b) = None -> read_problem tz ti tr groups df (JObj m) = Thrown.
Proof.
  intros tz ti tr groups df m bm b D I1 D1 B N G. unfold read_problem, child_req. cbn [member rdo]. rewrite (lookup_in _ _ _ D I1).
  destruct (C118_basic tz ti tr _ _ _ D1 B) as [B1 B2]. destruct (Rlt_dec 0 (b_dt_lower b)) as [L|L].
  - destruct (Rle_dec (b_dt_lower b) (b_dt_upper b)) as [L'|L'].
    + rewrite B1 by (split; assumption). cbn [rdo]. unfold section, child. cbn [member rdo]. rewrite lookup_out by assumption. cbn [rdo]. rewrite G. reflexivity.
    + rewrite B2 by tauto. reflexivity.
  - rewrite B2 by tauto. reflexivity.
Qed.
Print Assumptions C119_manip.

(** Whatever the document, reading it makes a problem or throws; no assertion fails. *)
Lemma rdo_safe {A B} (r : run A) (f : A -> run B) : r <> Assert -> (forall a, r = Done a -> f a <> Assert) -> rdo r f <> Assert.
Proof. destruct r as [a| |]; cbn; intros H F; [apply F; reflexivity|discriminate|destruct (H eq_refl)]. Qed.
Lemma rmap_safe {A B} (f : A -> run B) l : (forall a, f a <> Assert) -> rmap f l <> Assert.
Proof. intros F. induction l as [|a l IH]; cbn [rmap]; [discriminate|]. apply rdo_safe; [apply F|]. intros. apply rdo_safe; [exact IH|]. discriminate. Qed.
Section Safe.
  Context {T : Type} {NT : Num T}.
  Variable tz : T -> Z.
  Variable ti : Z -> string.
  Variable tr : T -> string.
  Lemma bool_safe v : as_bool (T := T) v <> Assert. Proof. destruct v; discriminate. Qed.
  Lemma int_safe v : as_int (T := T) tz v <> Assert. Proof. destruct v; cbn; try discriminate; destruct (_ && _); discriminate. Qed.
  Lemma double_safe v : as_double (T := T) v <> Assert. Proof. destruct v; discriminate. Qed.
  Lemma string_safe v : as_string (T := T) ti tr v <> Assert. Proof. destruct v; discriminate. Qed.
  Lemma member_safe n v : member (T := T) n v <> Assert. Proof. destruct v; discriminate. Qed.
  Lemma array_safe {A} (rd : json T -> run A) v : (forall w, rd w <> Assert) -> from_array rd v <> Assert. Proof. apply rmap_safe. Qed.
  Lemma array_n_safe {A} (rd : json T -> run A) n v : (forall w, rd w <> Assert) -> from_array_n rd n v <> Assert.
  Proof. intros H. unfold from_array_n. destruct (_ =? _)%Z; [apply array_safe, H|discriminate]. Qed.
  Lemma array_n_length {A} (rd : json T -> run A) n v l : from_array_n rd n v = Done l -> Z.of_nat (length l) = n.
  Proof.
    unfold from_array_n. destruct (_ =? _)%Z eqn:E; [|discriminate]. intros H. apply Z.eqb_eq in E. rewrite <- E. f_equal. symmetry.
    apply rmap_forall2 in H. exact (forall2_len _ _ _ H).
  Qed.
  Lemma vec3_safe v : as_vec3 (T := T) v <> Assert.
  Proof.
    unfold as_vec3. apply rdo_safe; [apply array_n_safe, double_safe|]. intros l H. apply array_n_length in H.
    destruct l as [|? [|? [|? [|]]]]; cbn [length] in H; try lia. discriminate.
  Qed.
  Lemma vec4_safe v : as_vec4 (T := T) v <> Assert.
  Proof.
    unfold as_vec4. apply rdo_safe; [apply array_n_safe, double_safe|]. intros l H. apply array_n_length in H.
    destruct l as [|? [|? [|? [|? [|]]]]]; cbn [length] in H; try lia. discriminate.
  Qed.
  Lemma child_safe {A} (rd : json T -> run A) n df v : (forall w, rd w <> Assert) -> child rd n df v <> Assert.
  Proof. intros H. apply rdo_safe; [apply member_safe|]. intros [w|] _; [apply H|discriminate]. Qed.
  Lemma child_req_safe {A} (rd : json T -> run A) n v : (forall w, rd w <> Assert) -> child_req rd n v <> Assert.
  Proof. intros H. apply rdo_safe; [apply member_safe|]. intros [w|] _; [apply H|discriminate]. Qed.
  Lemma section_safe {A} (rd : json T -> run A) n df v : (forall w, rd w <> Assert) -> section n df rd v <> Assert.
  Proof. intros H. apply rdo_safe; [apply member_safe|]. intros [w|] _; [apply H|discriminate]. Qed.
  Lemma solver_safe v : as_solver (T := T) ti tr v <> Assert.
  Proof. apply rdo_safe; [apply string_safe|]. intros s _. destruct (PipeModel.of_name s); discriminate. Qed.
  Lemma members_safe {A} k v (r : run A) : r <> Assert -> only_members (T := T) k v r <> Assert.
  Proof. intros H. apply rdo_safe; [exact H|]. intros a _. destruct (names_ok _ _); discriminate. Qed.
End Safe.
Ltac safe_step := first
  [ discriminate | assumption | apply bool_safe | apply int_safe | apply double_safe | apply string_safe | apply member_safe | apply vec3_safe | apply vec4_safe | apply solver_safe
  | apply members_safe | apply array_n_safe; intros | apply array_safe; intros | apply child_safe; intros | apply child_req_safe; intros | apply section_safe; intros | apply rdo_safe; [|intros ? _]
  | match goal with |- (if ?c then _ else _) <> Assert => destruct c end ].
Theorem C117_total : forall (T : Type) (NT : Num T) tz ti tr groups (df : params T) v,
  (exists q, read_problem tz ti tr groups df v = Done q) \/ read_problem tz ti tr groups df v = Thrown.
Proof.
  intros T NT tz ti tr groups df v.
  assert (S1 : read_problem tz ti tr groups df v <> Assert).
  { unfold read_problem, read_basic, read_opt. repeat safe_step. destruct (groups _) as [g|]; [|discriminate].
    assert (TT : forall kind n w, read_term tz ti tr kind n g w <> Assert).
    { intros kind n w. unfold read_term. repeat safe_step. destruct (find_maker _ _) as [k|]; [|discriminate].
      apply rdo_safe; [|intros; repeat safe_step]. unfold read_body. apply rdo_safe; [repeat safe_step|]. intros p _.
      destruct k; unfold read_pose, read_vel, read_joint, read_coll, read_pair, read_time; repeat safe_step. }
    unfold read_terms, read_init. repeat (apply TT || safe_step || (apply rmap_safe; intros) ).
    match goal with |- at_index ?i ?d <> Assert => destruct d; discriminate end. }
  destruct (read_problem tz ti tr groups df v) as [q| |]; [left; eauto|right; reflexivity|destruct (S1 eq_refl)].
Qed.
Print Assumptions C117_total.

(** An entry of "pairs" with no second link is refused, with whatever else is in the document. *)
Theorem C119_pairs : forall (T : Type) (NT : Num T) tz ti tr n (pm vm : list (string * json T)) ps c, distinct pm -> distinct vm ->
  In ("pairs"%string, JArr ps) pm -> In (JObj vm) ps -> In ("pair"%string, JArr []) vm -> read_coll tz ti tr n (JObj pm) <> Done c.
Proof.
  intros T NT tz ti tr n pm vm ps c D D1 I1 I2 I3 B. unfold read_coll in B. apply only_members_done in B as [B _].
  do 5 (apply rdo_done in B as (? & _ & B)). do 5 (destruct (negb _) in B; [discriminate|]). apply rdo_done in B as (? & _ & B).
  destruct (negb _) in B; [discriminate|]. apply rdo_done in B as (? & _ & B). destruct (negb _) in B; [discriminate|]. do 2 (apply rdo_done in B as (? & _ & B)).
  apply rdo_done in B as (r & P & _). unfold child in P. cbn [member rdo] in P. rewrite (lookup_in _ _ _ D I1) in P. unfold from_array in P. cbn [elements] in P.
  apply rmap_forall2 in P. revert P I2. clear - D1 I3. induction 1 as [|a b l r H F IH]; intros I2; [destruct I2|]. destruct I2 as [->|I2]; [|exact (IH I2)].
  unfold read_pair in H. apply rdo_done in H as (? & _ & H). unfold child_req at 1 in H. cbn [member rdo] in H. rewrite (lookup_in _ _ _ D1 I3) in H. discriminate.
Qed.
Print Assumptions C119_pairs.
Example C119_pairs_ex : let vm := [("link", JStr "a"); ("pair", JArr []); ("coeffs", JInt 1); ("dist_pen", JInt 1)]%string in
  let pm := [("coeffs", JInt 20); ("dist_pen", JInt 1); ("pairs", JArr [JObj vm])]%string in
  distinct (T := R) pm /\ distinct (T := R) vm /\ In ("pairs"%string, JArr [JObj vm]) pm /\ In ("pair"%string, JArr []) vm.
Proof. cbv zeta. split; [nodup|]. split; [nodup|]. cbn. auto. Qed.

(** The group asked for is not in the environment. *)
Example C119_manip_ex : exists b, says_basic (T := R) (PipeModel.kind_value PipeModel.AUTO_SOLVER) (ex_basic []) b /\ (fun _ : string => @None group) (b_manip b) = None.
Proof. exists (ex_b 1 1 4). split; [basics|reflexivity]. Qed.
