(** Proofs about documents on joint space problems. *)
From Coq Require Import ZArith String Ascii List Bool Arith Lia Reals Lra.
From Verif Require Import Num NumFacts Common JsonModel JsonSpec JsonProofs JsonProps ArrayModel TrajCostModel CollisionModel TrajoptModel PlanModel PlanSpec DocModel DocSpec.
From Verif Require PipeModel.
Import ListNotations.
Local Open Scope R_scope.

Section Doc.
  Variable tz : R -> Z.
  Variable ti : Z -> string.
  Variable tr : R -> string.
  Context (env : string -> option arm).

  Lemma start_read dof n m i d : distinct m -> says_start dof n m i d ->
    exists dt, read_init ti tr n dof no_data (JObj m) = Done {| i_type := i; i_data := d; i_dt := dt |}.
  Proof using.
    intros D H. destruct H as [ty dt H1 W H2|ty dt rows H1 W H2 H3 L F|ty dt e H1 W H2 H3 L]; exists dt; unfold read_init;
      rewrite (child_req_states _ _ _ _ _ D (reads_text ti tr) H1); cbn [rdo];
      change (@none_ R R_Num) with 1; rewrite (child_states _ _ _ _ _ _ D reads_num H2); cbn [rdo].
    - rewrite (word_iequals _ _ W). reflexivity.
    - rewrite (word_other _ _ "stationary" W) by discriminate. rewrite (word_iequals _ _ W). destruct H3 as (v & V & H3).
      rewrite (any_reads _ _ _ D V). cbn [rdo]. rewrite (elements_len _ _ _ H3), L, Z.eqb_refl. cbn [negb].
      rewrite <- L, Nat2Z.id, (rows_read _ _ _ H3 F). reflexivity.
    - rewrite (word_other _ _ "stationary" W) by discriminate. rewrite (word_other _ _ "given_traj" W) by discriminate. rewrite (word_iequals _ _ W).
      rewrite (child_req_states _ _ _ _ _ D (reads_list _ _ reads_num) H3). cbn [rdo]. rewrite L, Nat.eqb_refl. reflexivity.
  Qed.

  Lemma doc_read df m b o g cs ns im i d : distinct m -> says_problem (groups env) df m b o g cs ns im -> 0 < b_dt_lower b <= b_dt_upper b ->
    says_start (g_dof g) (b_steps b) im i d ->
    exists q, read_problem tz ti tr (groups env) df (JObj m) = Done q /\ q_costs q = cs /\ q_cnts q = ns /\
      q_basic q = with_time b (b_time b || existsb uses_time (cs ++ ns)) /\ i_type (q_init q) = i /\ i_data (q_init q) = d.
  Proof using.
    intros D (H1 & H2 & H3 & H4 & H5 & H6 & Di) L I. destruct (start_read _ _ _ _ _ Di I) as (dt & Ri).
    assert (R2 : JsonProofs.reads (read_opt tz df) (is_object (says_opt df))) by (intros v x (om & -> & Do & B); apply C118_opt; assumption).
    assert (R4 : JsonProofs.reads (read_terms tz ti tr TT_COST (b_steps b) g) (is_list (says_term 1 (b_steps b) g))) by (intros v x B; apply C119_terms; auto).
    assert (R5 : JsonProofs.reads (read_terms tz ti tr TT_CNT (b_steps b) g) (is_list (says_term 2 (b_steps b) g))) by (intros v x B; apply C119_terms; auto).
    unfold read_problem.
    assert (Q1 : child_req (read_basic tz ti tr (PipeModel.kind_value PipeModel.AUTO_SOLVER)) "basic_info" (JObj m) = Done b).
    { destruct H1 as (v & V & bm & -> & Db & B). unfold child_req. cbn [member rdo]. rewrite (lookup_in _ _ _ D V). apply C118_basic; assumption. }
    rewrite Q1. cbn [rdo]. unfold section. rewrite (child_states _ _ _ _ _ _ D R2 H2). cbn [rdo]. rewrite H3.
    rewrite (child_states _ _ _ _ _ _ D R4 H4). cbn [rdo]. rewrite (child_states _ _ _ _ _ _ D R5 H5). cbn [rdo].
    assert (Q6 : child_req (read_init ti tr (b_steps b) (g_dof g) no_data) "init_info" (JObj m) = Done {| i_type := i; i_data := d; i_dt := dt |}).
    { unfold child_req. cbn [member rdo]. rewrite (lookup_in _ _ _ D H6). exact Ri. }
    rewrite Q6. cbn [rdo]. eexists. split; [reflexivity|]. cbn [q_costs q_cnts q_basic q_init i_type i_data]. auto.
  Qed.

  Lemma joint_only_iff ts l : joint_terms ts l -> joint_only ts = Some l.
  Proof using. unfold joint_terms. induction 1 as [|t [o p] ts l H F IH]; cbn [joint_only]; [reflexivity|]. cbn [fst snd] in H. rewrite H, IH. reflexivity. Qed.

  (** a term says what kind it is and whether it uses time *)
  Lemma term_said kind n g v t : kind = 1%Z \/ kind = 2%Z -> says_term (T := R) kind n g v t ->
    (t_type t = kind \/ t_type t = (kind + 4)%Z) /\ forall o p, t_body t = BJoint o p -> jt_type p = t_type t.
  Proof using.
    intros K [m ty ut pm b nm D H1 H2 P Dp B H3]. cbn [t_type t_body]. split; [destruct ut; [right; reflexivity|left; apply Z.add_0_r]|].
    intros o p ->. inversion B as [| | |? ? J|? ? J|? ? J|? ? J| |]; subst; apply J.
  Qed.
  Lemma terms_said kind n g m s ts t : kind = 1%Z \/ kind = 2%Z -> states_or m s (is_list (says_term (T := R) kind n g)) [] ts -> In t ts ->
    (t_type t = kind \/ t_type t = (kind + 4)%Z) /\ forall o p, t_body t = BJoint o p -> jt_type p = t_type t.
  Proof using.
    intros K [[_ ->]|(v & _ & B)] X; [destruct X|]. destruct B as [vs ts B]. induction B as [|w y vs ts B1 B2 IH]; [destruct X|]. destruct X as [->|X]; [eapply term_said; eassumption|apply IH, X].
  Qed.
  (** the types of the infos *)
  Lemma check_said kind ts l : kind = TT_COST \/ kind = TT_CNT -> joint_terms ts l ->
    (forall t, In t ts -> (t_type t = kind \/ t_type t = (kind + 4)%Z) /\ forall o p, t_body t = BJoint o p -> jt_type p = t_type t) ->
    check_terms kind (map info l) = if existsb (fun t => match t_body t with BJoint Acc _ | BJoint Jerk _ => uses_time t | _ => false end) ts then None else Some (existsb uses_time ts).
  Proof using.
    intros K J H. induction J as [|t [o p] ts l E F IH]; [reflexivity|]. cbn [fst snd] in E. destruct (H t (or_introl eq_refl)) as [Ty Tj]. specialize (Tj o p E).
    cbn [map check_terms existsb]. rewrite IH by (intros; apply H; right; assumption). clear IH. change (ti_type (info (o, p))) with (jt_type p). change (ti_supported (info (o, p))) with (supported o). rewrite Tj, E.
    generalize (existsb (fun t => match t_body t with BJoint Acc _ | BJoint Jerk _ => uses_time t | _ => false end) ts), (existsb uses_time ts). intros x y. unfold uses_time.
    destruct K as [-> | ->]; destruct Ty as [-> | ->]; destruct o, x; reflexivity.
  Qed.
End Doc.
