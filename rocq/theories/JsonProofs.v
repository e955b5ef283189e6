(** * Reading JSON: lemmas *)
From Coq Require Import ZArith String Ascii List Bool Arith Lia.
From Verif Require Import Num Common JsonModel JsonSpec.
From Verif Require PipeModel TrajoptModel TrajCostModel CollisionModel.
Import ListNotations.
Import TrajoptModel (run, Done, Thrown, Assert, rdo, rmap).

Section Read.
  Context {T : Type} {NT : Num T}.
  Variable ntrunc : T -> Z.
  Variable ti : Z -> string.
  Variable tr : T -> string.
  Notation json := (json T).
  Notation as_int := (as_int ntrunc).
  Notation as_string := (as_string ti tr).

  Lemma rdo_done {A B} (r : run A) (f : A -> run B) b : rdo r f = Done b -> exists a, r = Done a /\ f a = Done b.
  Proof. destruct r as [a| |]; cbn; intros H; try discriminate. exists a. auto. Qed.

  Lemma lookup_in n v (m : list (string * json)) : NoDup (map fst m) -> In (n, v) m -> lookup n m = Some v.
  Proof.
    induction m as [|[k w] m IH]; cbn; intros N H; [destruct H|]. inversion N as [|? ? N1 N2]; subst.
    destruct H as [[= -> ->]|H]; [rewrite String.eqb_refl; reflexivity|].
    destruct (String.eqb_spec n k) as [->|]; [|apply IH; assumption]. destruct N1. apply (in_map fst) in H. exact H.
  Qed.
  Lemma lookup_out n (m : list (string * json)) : ~ In n (map fst m) -> lookup n m = None.
  Proof.
    induction m as [|[k w] m IH]; cbn; intros N; [reflexivity|]. destruct (String.eqb_spec n k) as [->|]; [destruct N; auto|].
    apply IH. intros H. apply N. auto.
  Qed.
  Lemma lookup_some n v (m : list (string * json)) : lookup n m = Some v -> In (n, v) m.
  Proof.
    induction m as [|[k w] m IH]; cbn; intros N; [discriminate|]. destruct (String.eqb_spec n k) as [->|]; [injection N as ->; auto|auto].
  Qed.

  (** readers of the types *)
  Definition reads {A} (rd : json -> run A) (P : json -> A -> Prop) : Prop := forall v x, P v x -> rd v = Done x.
  Lemma reads_int : reads as_int is_int.
  Proof.
    intros v x H. destruct H as [z Z]. unfold JsonModel.as_int, int_min, int_max.
    replace (- 2 ^ 31 <=? z)%Z with true by (symmetry; apply Z.leb_le; lia).
    replace (z <=? 2 ^ 31 - 1)%Z with true by (symmetry; apply Z.leb_le; lia). reflexivity.
  Qed.
  Lemma reads_num : reads as_double is_num. Proof. intros v x []; reflexivity. Qed.
  Lemma reads_text : reads as_string is_text. Proof. intros v x []; reflexivity. Qed.
  Lemma reads_flag : reads as_bool is_flag. Proof. intros v x []; reflexivity. Qed.
  Lemma rmap_forall2 {A B} (f : A -> run B) l r : rmap f l = Done r <-> Forall2 (fun a b => f a = Done b) l r.
  Proof.
    revert r. induction l as [|a l IH]; intros r; cbn [rmap].
    - split; intros H; [injection H as <-; constructor|inversion H; reflexivity].
    - split.
      + intros H. apply rdo_done in H as (b & B1 & H). apply rdo_done in H as (bs & B2 & H). injection H as <-. constructor; [assumption|apply IH, B2].
      + intros H. inversion H as [|? ? ? ? H1 H2]; subst. rewrite H1. cbn [rdo]. apply IH in H2. rewrite H2. reflexivity.
  Qed.
  Lemma reads_list {A} (rd : json -> run A) P : reads rd P -> reads (from_array rd) (is_list P).
  Proof.
    intros R v x []. unfold from_array. cbn [elements]. apply rmap_forall2. induction H; constructor; auto.
  Qed.
  Lemma forall2_len {A B} (P : A -> B -> Prop) l r : Forall2 P l r -> length l = length r.
  Proof. induction 1; cbn; congruence. Qed.
  Lemma list_n {A} (rd : json -> run A) P v l n : reads rd P -> is_list P v l -> Z.of_nat (length l) = n -> from_array_n rd n v = Done l.
  Proof.
    intros R H E. unfold from_array_n. assert (L : length (elements v) = length l) by (destruct H as [vs l H]; exact (forall2_len _ _ _ H)).
    rewrite L, E, Z.eqb_refl. apply (reads_list _ _ R), H.
  Qed.
  Lemma reads_vec3 : reads as_vec3 is_vec3.
  Proof. intros u q [v x y z H]. unfold as_vec3. rewrite (list_n _ is_num v [x; y; z] 3 reads_num H eq_refl). reflexivity. Qed.
  Lemma reads_vec4 : reads as_vec4 is_vec4.
  Proof. intros u q [v w x y z H]. unfold as_vec4. rewrite (list_n _ is_num v [w; x; y; z] 4 reads_num H eq_refl). reflexivity. Qed.
  Lemma reads_solver : reads (as_solver ti tr) (fun v k => exists s, is_text v s /\ PipeModel.of_name s = Some k).
  Proof. intros v k (s & H & E). unfold as_solver. rewrite (reads_text _ _ H). cbn [rdo]. rewrite E. reflexivity. Qed.

  Lemma child_states {A} (rd : json -> run A) P n df m x :
    distinct m -> reads rd P -> states_or m n P df x -> child rd n df (JObj m) = Done x.
  Proof.
    intros D R [[N ->]|(v & V & H)]; unfold child; cbn [member rdo].
    - rewrite (lookup_out _ _ N). reflexivity.
    - rewrite (lookup_in _ _ _ D V). apply R, H.
  Qed.
  Lemma child_req_states {A} (rd : json -> run A) P n m x : distinct m -> reads rd P -> states m n P x -> child_req rd n (JObj m) = Done x.
  Proof. intros D R (v & V & H). unfold child_req. cbn [member rdo]. rewrite (lookup_in _ _ _ D V). apply R, H. Qed.
  Lemma child_req_missing {A} (rd : json -> run A) n m : ~ In n (map fst m) -> child_req rd n (JObj m) = Thrown.
  Proof. intros N. unfold child_req. cbn [member rdo]. rewrite (lookup_out _ _ N). reflexivity. Qed.
End Read.
Global Hint Resolve reads_int reads_num reads_text reads_flag reads_list reads_vec3 reads_vec4 reads_solver : json.

(** rewrites with everything a document states *)
Ltac step_json D :=
  match goal with
  | H : states ?m ?n ?P ?x |- context [child_req ?rd ?n (JObj ?m)] => rewrite (child_req_states rd P n m x D ltac:(auto 6 with json) H); cbn [rdo]
  | H : states_or ?m ?n ?P ?df ?x |- context [child ?rd ?n ?df (JObj ?m)] => rewrite (child_states rd P n df m x D ltac:(auto 6 with json) H); cbn [rdo]
  end.

Section Sections.
  Context {T : Type} {NT : Num T}.
  Variable ntrunc : T -> Z.
  Variable ti : Z -> string.
  Variable tr : T -> string.
  Notation json := (json T).
  Local Open Scope num_scope.

  Lemma basic_read s m b : distinct m -> says_basic s m b -> read_basic ntrunc ti tr s (JObj m) =
    if (b_dt_lower b <=? nzero) || (b_dt_upper b <? b_dt_lower b) then Thrown else Done b.
  Proof.
    intros D (H1 & H2 & H3 & H4 & H5 & H6 & H7 & H8). unfold read_basic. do 8 step_json D. destruct b; reflexivity.
  Qed.
  Lemma opt_read df m p : distinct m -> says_opt df m p -> read_opt ntrunc df (JObj m) = Done p.
  Proof.
    intros D (H1 & H2 & H3 & H4 & H5 & H6 & H7 & H8 & H9 & H10 & H11 & H12 & H13 & H14 & E). unfold read_opt. do 14 step_json D.
    rewrite <- E. destruct p; reflexivity.
  Qed.

  Lemma lower_ascii_small c : (97 <= nat_of_ascii c <= 122)%nat -> lower_ascii c = c /\ lower_ascii (upper_of c) = c.
  Proof.
    intros H. unfold lower_ascii, upper_of. split.
    - replace (nat_of_ascii c <=? 90)%nat with false by (symmetry; apply Nat.leb_gt; lia). rewrite andb_false_r. reflexivity.
    - rewrite nat_ascii_embedding by lia. replace (65 <=? nat_of_ascii c - 32)%nat with true by (symmetry; apply Nat.leb_le; lia).
      replace (nat_of_ascii c - 32 <=? 90)%nat with true by (symmetry; apply Nat.leb_le; lia). cbn [andb].
      replace (nat_of_ascii c - 32 + 32)%nat with (nat_of_ascii c) by lia. apply ascii_nat_embedding.
  Qed.
  Lemma word_lower s w : word s w -> lower s = lower w.
  Proof. induction 1 as [|c s w H IH|c s w C H IH]; cbn [lower]; [reflexivity|congruence|]. destruct (lower_ascii_small c C) as [-> ->]. congruence. Qed.
  Lemma word_iequals s w : word s w -> iequals s w = true.
  Proof. intros H. unfold iequals. rewrite (word_lower _ _ H). apply String.eqb_refl. Qed.
  Lemma word_other s w w' : word s w -> lower w <> lower w' -> iequals s w' = false.
  Proof. intros H N. unfold iequals. rewrite (word_lower _ _ H). apply String.eqb_neq, N. Qed.

  Lemma rows_read v rows n : is_list (is_list is_num) v rows -> Forall (fun r => length r = n) rows ->
    rmap (fun i => rdo (at_index i v) (from_array_n (as_double (T := T)) (Z.of_nat n))) (seq 0 (length rows)) = Done rows.
  Proof.
    intros H F. destruct H as [vs rows H]. apply rmap_forall2. cbn [at_index rdo].
    assert (G : forall pre, Forall2 (fun i r => from_array_n as_double (Z.of_nat n) (nth i (pre ++ vs) JNull) = Done r) (seq (length pre) (length rows)) rows).
    { induction H as [|v r vs rows H H' IH]; intros pre; cbn [length seq]; [constructor|]. inversion F; subst. constructor.
      - rewrite app_nth2, Nat.sub_diag by lia. cbn [nth]. apply (list_n _ is_num); auto using reads_num.
      - specialize (IH ltac:(assumption) (pre ++ [v])). rewrite app_length, <- app_assoc, Nat.add_1_r in IH. exact IH. }
    exact (G []).
  Qed.
  Lemma any_reads (m : list (string * json)) n v : distinct m -> In (n, v) m -> child_req (fun d => Done d) n (JObj m) = Done v.
  Proof. intros D H. unfold child_req. cbn [member rdo]. rewrite (lookup_in _ _ _ D H). reflexivity. Qed.
  Lemma elements_len {A} (P : json -> A -> Prop) v l : is_list P v l -> length (elements v) = length l.
  Proof. intros [vs l' H]. exact (forall2_len _ _ _ H). Qed.

  (** the initial trajectory of a problem read from JSON *)
  Lemma init_read n start m rows dt old use_time : distinct m -> (0 <= n)%Z -> says_init n start m rows dt ->
    rdo (read_init ti tr n (length start) old (JObj m)) (fun i => TrajoptModel.init_traj (i_type i) start (i_data i) n use_time (i_dt i)) =
    Done {| TrajoptModel.m_rows := map (fun r => app r (if use_time then [dt] else [])) rows; TrajoptModel.m_cols := length start + (if use_time then 1 else 0) |}.
  Proof.
    intros D N H.
    assert (Z0 : (n <? 0)%Z = false) by (apply Z.ltb_ge; lia).
    assert (FIN : forall (dt : T) (rows : list (list T)), (if use_time then
        {| TrajoptModel.m_rows := map (fun r => r ++ [dt]) rows; TrajoptModel.m_cols := length start + 1 |} else {| TrajoptModel.m_rows := rows; TrajoptModel.m_cols := length start |}) =
       {| TrajoptModel.m_rows := map (fun r => app r (if use_time then [dt] else [])) rows; TrajoptModel.m_cols := length start + (if use_time then 1 else 0) |}).
    { intros d r. destruct use_time; [reflexivity|]. f_equal; [|lia]. rewrite <- (map_id r) at 1. apply map_ext. intros x. rewrite app_nil_r. reflexivity. }
    destruct H as [ty dt Ht W Hd|ty dt rows Ht W Hd H L F|ty dt e Ht W Hd H L]; unfold read_init; do 2 step_json D.
    - rewrite (word_iequals _ _ W). cbn [rdo i_type i_data i_dt]. unfold TrajoptModel.init_traj. rewrite Z0. cbn [rdo TrajoptModel.m_rows TrajoptModel.m_cols]. rewrite FIN. reflexivity.
    - rewrite (word_other _ _ "stationary" W) by discriminate. rewrite (word_iequals _ _ W).
      destruct H as (v & V & H). rewrite (any_reads _ _ _ D V). cbn [rdo]. rewrite (elements_len _ _ _ H), L, Z.eqb_refl. cbn [negb].
      subst n. rewrite Nat2Z.id, (rows_read _ _ _ H F). cbn [rdo i_type i_data i_dt]. unfold TrajoptModel.init_traj. cbn [rdo TrajoptModel.m_rows TrajoptModel.m_cols]. rewrite FIN. reflexivity.
    - rewrite (word_other _ _ "stationary" W) by discriminate. rewrite (word_other _ _ "given_traj" W) by discriminate.
      rewrite (word_iequals _ _ W). step_json D. rewrite L, Nat.eqb_refl. cbn [negb rdo i_type i_data i_dt]. unfold TrajoptModel.init_traj. cbn [TrajoptModel.m_rows TrajoptModel.m_cols].
      rewrite map_length, L, Z0.
      assert (E : map (fun r => nth 0 r nzero) (map (fun x => [x]) e) = e) by (rewrite map_map; cbn; apply map_id).
      destruct ((length start =? 1)%nat && (1 =? length start)%nat) eqn:B.
      + apply andb_true_iff in B as [B _]. apply Nat.eqb_eq in B. rewrite B in L. destruct e as [|x [|]]; try discriminate. cbn [map nth rdo TrajoptModel.m_rows TrajoptModel.m_cols]. rewrite FIN. reflexivity.
      + rewrite Nat.eqb_refl. cbn [andb]. rewrite E. cbn [Nat.eqb rdo TrajoptModel.m_rows TrajoptModel.m_cols]. rewrite FIN. reflexivity.
  Qed.
End Sections.

Section Terms.
  Context {T : Type} {NT : Num T}.
  Variable ntrunc : T -> Z.
  Variable ti : Z -> string.
  Variable tr : T -> string.
  Notation json := (json T).
  Local Open Scope num_scope.

  Lemma only_members_in {A} k (m : list (string * json)) (r : run A) : within m (TrajoptModel.fields k) -> only_members k (JObj m) r = r.
  Proof.
    intros W. unfold only_members. replace (names_ok (TrajoptModel.fields k) (JObj m)) with true; [destruct r; reflexivity|]. symmetry.
    unfold names_ok, TrajoptModel.ensure_only_members. apply forallb_forall. intros n H. apply existsb_exists. exists n. split; [apply W, H|apply String.eqb_refl].
  Qed.
  Lemma only_members_done {A} k v (r : run A) a : only_members k v r = Done a -> r = Done a /\ forall m : list (string * json), v = JObj m -> within m (TrajoptModel.fields k).
  Proof.
    unfold only_members. intros H. apply rdo_done in H as (b & -> & H). destruct (names_ok _ v) eqn:E; [|discriminate]. injection H as ->. split; [reflexivity|].
    intros m -> n N. unfold names_ok, TrajoptModel.ensure_only_members in E. rewrite forallb_forall in E. specialize (E n N).
    apply existsb_exists in E as (x & X & E). apply String.eqb_eq in E as ->. exact X.
  Qed.

  Lemma pose_read dyn n g m p : distinct m -> says_pose n m p -> pose_fits dyn g p -> read_pose ntrunc ti tr dyn n g (JObj m) = Done p.
  Proof.
    intros D (W & H1 & H2 & H3 & H4 & H5 & (H6 & sq & H7 & E1) & (H8 & tq & H9 & E2)) (F1 & F2 & F3). unfold read_pose.
    rewrite only_members_in by (destruct dyn; exact W). unfold unit_q. do 9 step_json D. rewrite F1, F2. cbn [negb].
    assert (X : (if dyn then negb (g_active g (ps_source p) && g_active g (ps_target p)) else eqb (g_active g (ps_source p)) (g_active g (ps_target p))) = false).
    { destruct dyn; [destruct F3 as [-> ->]; reflexivity|]. apply eqb_false_iff, F3. }
    rewrite X, <- E1, <- E2. destruct p as [? ? ? ? ? [] []]; reflexivity.
  Qed.
  Lemma vel_read n g m p : distinct m -> says_vel m p -> vel_fits n g p -> read_vel ntrunc ti tr n g (JObj m) = Done p.
  Proof.
    intros D (W & H1 & H2 & H3 & H4) (F1 & F2 & F3). unfold read_vel. rewrite only_members_in by exact W. do 3 step_json D.
    replace (TrajoptModel.cart_vel_accepts n (cv_first p) (cv_last p)) with true
      by (symmetry; unfold TrajoptModel.cart_vel_accepts; rewrite !andb_true_iff, !Z.leb_le, !Z.ltb_lt; lia).
    cbn [negb]. step_json D. rewrite F3. destruct p; reflexivity.
  Qed.
  Lemma joint_read o ty n g m p : distinct m -> says_joint o ty n (g_dof g) m p -> read_joint ntrunc o ty n g (JObj m) = Done p.
  Proof.
    intros D (W & E & H1 & H2 & H3 & H4 & H5 & H6). unfold read_joint. rewrite only_members_in by (destruct o; exact W). do 6 step_json D.
    rewrite <- E. destruct p; reflexivity.
  Qed.
  Lemma reads_pair : reads (read_pair ti tr) says_pair.
  Proof.
    intros v x [m l ps c d D H1 H2 N H3 H4]. unfold read_pair. do 2 step_json D. destruct ps; [contradiction|]. cbn [length Nat.eqb]. do 2 step_json D. reflexivity.
  Qed.
  Hint Resolve reads_pair : json.
  Lemma coll_read n m p : distinct m -> says_coll n m p -> coll_fits n p -> read_coll ntrunc ti tr n (JObj m) = Done p.
  Proof.
    intros D (W & H1 & H2 & H3 & H4 & E & H5 & H6 & H7 & H8 & ps & H9 & P) (F1 & F2 & F3 & F4 & F5 & F6 & F7). unfold read_coll. rewrite only_members_in by exact W.
    assert (B : states_or m "safety_margin_buffer" is_num (ndec 5 (-1)) (cl_buffer p)).
    { left. split; [|exact E]. intros H. apply W in H. cbn in H. repeat (destruct H as [H|H]; [discriminate|]). exact H. }
    repeat step_json D. rewrite F6. cbn [negb].
    replace ((0 <=? cl_first p)%Z && (cl_first p <? n)%Z) with true by (symmetry; rewrite andb_true_iff, Z.leb_le, Z.ltb_lt; lia).
    replace ((cl_first p <=? cl_last p)%Z && (cl_last p <? n)%Z) with true by (symmetry; rewrite andb_true_iff, Z.leb_le, Z.ltb_lt; lia).
    replace (cl_type p <=? 4)%Z with true by (symmetry; apply Z.leb_le; lia). rewrite F7. cbn [negb].
    replace (forallb (fun s => negb ((s <? cl_first p)%Z || (cl_last p <? s)%Z)) (cl_fixed p)) with true.
    2:{ symmetry. apply forallb_forall. intros s S. specialize (F5 s S). apply negb_true_iff, orb_false_iff. rewrite !Z.ltb_ge. lia. }
    cbn [negb].
    replace ((0 <=? cl_contact p)%Z && (cl_contact p <? 3)%Z) with true by (symmetry; rewrite andb_true_iff, Z.leb_le, Z.ltb_lt; lia). cbn [negb].
    rewrite <- P. destruct p; reflexivity.
  Qed.
  Lemma time_read m c l : distinct m -> says_time m c l -> read_time (JObj m) = Done (c, l).
  Proof. intros D (W & H1 & H2). unfold read_time. rewrite only_members_in by exact W. do 2 step_json D. reflexivity. Qed.

  Lemma body_read ty n g name pm b mk : distinct pm -> says_body ty n g name pm b -> find_maker name makers = Some mk ->
    forall m, distinct m -> In ("params"%string, JObj pm) m -> read_body ntrunc ti tr mk ty n g (JObj m) = Done b.
  Proof.
    intros D B M m D' P. unfold read_body. rewrite (any_reads _ _ _ D' P). cbn [rdo].
    destruct B; cbn in M; injection M as <-.
    all: try (rewrite (pose_read _ _ _ _ _ D H H0); reflexivity).
    all: try (rewrite (joint_read _ _ _ _ _ _ D H); reflexivity).
    - rewrite (vel_read _ _ _ _ D H H0). reflexivity.
    - rewrite (coll_read _ _ _ D H H0). reflexivity.
    - rewrite (time_read _ _ _ D H). reflexivity.
  Qed.
  Lemma body_named ty n g name pm b : says_body ty n g name pm b -> exists mk, find_maker name makers = Some mk.
  Proof. destruct 1; eexists; reflexivity. Qed.

  Lemma term_read kind n g v t : kind = 1%Z \/ kind = 2%Z -> says_term kind n g v t -> read_term ntrunc ti tr kind n g v = Done t.
  Proof.
    intros K [m ty ut pm b nm D H1 H2 P Dp B H3]. unfold read_term. do 2 step_json D.
    destruct (body_named _ _ _ _ _ _ B) as [mk M]. rewrite M.
    replace (if ut then Z.lor kind TrajoptModel.TT_USE_TIME else kind) with (kind + (if ut then 4 else 0))%Z
      by (destruct K as [->| ->], ut; reflexivity).
    rewrite (body_read _ _ _ _ _ _ _ Dp B M m D P). cbn [rdo]. step_json D. reflexivity.
  Qed.
End Terms.
