(** Proofs about documents on joint space problems with time. *)
From Coq Require Import ZArith String Ascii List Bool Arith Lia Reals Lra.
From Verif Require Import Num NumFacts Common JsonModel JsonSpec JsonProofs JsonProps ArrayModel TrajCostModel CollisionModel TrajoptModel PlanModel PlanSpec DocModel DocSpec DocProofs TimedModel TimedDocModel TimedDocSpec.
From Verif Require PipeModel.
Import ListNotations.
Local Open Scope R_scope.

Section Doc.
  Variable tz : R -> Z.
  Variable ti : Z -> string.
  Variable tr : R -> string.
  Context (env : string -> option arm).

  Lemma tstart_read dof n m i d dt : distinct m -> says_start dof n m i d -> states_or m "dt" is_num 1 dt ->
    read_init ti tr n dof no_data (JObj m) = Done {| i_type := i; i_data := d; i_dt := dt |}.
  Proof using.
    intros D H Hd. destruct H as [ty dt' H1 W H2|ty dt' rows H1 W H2 H3 L F|ty dt' e H1 W H2 H3 L]; unfold read_init;
      rewrite (child_req_states _ _ _ _ _ D (reads_text ti tr) H1); cbn [rdo];
      change (@none_ R R_Num) with 1; rewrite (child_states _ _ _ _ _ _ D reads_num Hd); cbn [rdo].
    - rewrite (word_iequals _ _ W). reflexivity.
    - rewrite (word_other _ _ "stationary" W) by discriminate. rewrite (word_iequals _ _ W). destruct H3 as (v & V & H3).
      rewrite (any_reads _ _ _ D V). cbn [rdo]. rewrite (elements_len _ _ _ H3), L, Z.eqb_refl. cbn [negb].
      rewrite <- L, Nat2Z.id, (rows_read _ _ _ H3 F). reflexivity.
    - rewrite (word_other _ _ "stationary" W) by discriminate. rewrite (word_other _ _ "given_traj" W) by discriminate. rewrite (word_iequals _ _ W).
      rewrite (child_req_states _ _ _ _ _ D (reads_list _ _ reads_num) H3). cbn [rdo]. rewrite L, Nat.eqb_refl. reflexivity.
  Qed.

  Lemma tdoc_read df m b o g cs ns im i d dt : distinct m -> says_problem (groups env) df m b o g cs ns im -> 0 < b_dt_lower b <= b_dt_upper b ->
    says_start (g_dof g) (b_steps b) im i d -> states_or im "dt" is_num 1 dt ->
    exists q, read_problem tz ti tr (groups env) df (JObj m) = Done q /\ q_costs q = cs /\ q_cnts q = ns /\
      q_basic q = with_time b (b_time b || existsb uses_time (cs ++ ns)) /\ q_init q = {| i_type := i; i_data := d; i_dt := dt |}.
  Proof using.
    intros D (H1 & H2 & H3 & H4 & H5 & H6 & Di) L I Hd. pose proof (tstart_read _ _ _ _ _ _ Di I Hd) as Ri.
    assert (R2 : JsonProofs.reads (read_opt tz df) (is_object (says_opt df))) by (intros v x (om & -> & Do & B); apply C118_opt; assumption).
    assert (R4 : JsonProofs.reads (read_terms tz ti tr TT_COST (b_steps b) g) (is_list (says_term 1 (b_steps b) g))) by (intros v x B; apply C119_terms; auto).
    assert (R5 : JsonProofs.reads (read_terms tz ti tr TT_CNT (b_steps b) g) (is_list (says_term 2 (b_steps b) g))) by (intros v x B; apply C119_terms; auto).
    unfold read_problem.
    assert (Q1 : child_req (read_basic tz ti tr (PipeModel.kind_value PipeModel.AUTO_SOLVER)) "basic_info" (JObj m) = Done b).
    { destruct H1 as (v & V & bm & -> & Db & B). unfold child_req. cbn [member rdo]. rewrite (lookup_in _ _ _ D V). apply C118_basic; assumption. }
    rewrite Q1. cbn [rdo]. unfold section. rewrite (child_states _ _ _ _ _ _ D R2 H2). cbn [rdo]. rewrite H3.
    rewrite (child_states _ _ _ _ _ _ D R4 H4). cbn [rdo]. rewrite (child_states _ _ _ _ _ _ D R5 H5). cbn [rdo].
    assert (Q6 : child_req (read_init ti tr (b_steps b) (g_dof g) no_data) "init_info" (JObj m) = Done {| i_type := i; i_data := d; i_dt := dt |}).
    { unfold child_req. cbn [member rdo]. rewrite (lookup_in _ _ _ D H6). exact Ri. }
    rewrite Q6. cbn [rdo]. eexists. split; [reflexivity|]. cbn [q_costs q_cnts q_basic q_init]. auto.
  Qed.

  Lemma tterm_of_iff t u : tterm_of t = Some u <-> same_term t u.
  Proof using.
    unfold tterm_of, same_term. destruct u as [[o p]|ty c l]; destruct (t_body t) eqn:E; split; intros H; try discriminate; try (destruct H; discriminate); try congruence.
    - injection H as <- <- <-. auto.
    - destruct H as [[= <- <-] <-]. reflexivity.
  Qed.
  Lemma tterms_of_iff ts : forall l, tterms_of ts = Some l <-> timed_terms ts l.
  Proof using.
    unfold timed_terms. induction ts as [|t ts IH]; intros l; cbn [tterms_of].
    - split; [intros [= <-]; constructor|intros H; inversion H; reflexivity].
    - split.
      + destruct (tterm_of t) as [u|] eqn:Et; [|discriminate]. destruct (tterms_of ts) as [l'|] eqn:El; [|discriminate]. intros [= <-]. constructor; [apply tterm_of_iff, Et|apply IH; reflexivity].
      + intros H. inversion H as [|? u ? l' H1 H2]; subst. apply tterm_of_iff in H1. apply IH in H2. rewrite H1, H2. reflexivity.
  Qed.

  (** the types of the infos *)
  Lemma tcheck_said kind ts l : kind = TT_COST \/ kind = TT_CNT -> timed_terms ts l ->
    (forall t, In t ts -> (t_type t = kind \/ t_type t = (kind + 4)%Z) /\ forall o p, t_body t = BJoint o p -> jt_type p = t_type t) ->
    check_terms kind (map tinfo_of l) = if existsb (fun t => match t_body t with BJoint Acc _ | BJoint Jerk _ => uses_time t | _ => false end) ts then None else Some (existsb uses_time ts).
  Proof using.
    intros K J H. induction J as [|t u ts l E F IH]; [reflexivity|]. destruct (H t (or_introl eq_refl)) as [Ty Tj].
    cbn [map check_terms existsb]. rewrite IH by (intros; apply H; right; assumption). clear IH.
    destruct u as [[o p]|ty c lim]; cbn [same_term] in E.
    - specialize (Tj o p E). change (ti_type (tinfo_of (TJoint (o, p)))) with (jt_type p). change (ti_supported (tinfo_of (TJoint (o, p)))) with (supported o). rewrite Tj, E.
      generalize (existsb (fun t => match t_body t with BJoint Acc _ | BJoint Jerk _ => uses_time t | _ => false end) ts), (existsb uses_time ts). intros x y. unfold uses_time.
      destruct K as [-> | ->]; destruct Ty as [-> | ->]; destruct o, x; reflexivity.
    - destruct E as [E <-]. change (ti_type (tinfo_of (TTotal (t_type t) c lim))) with (t_type t). change (ti_supported (tinfo_of (TTotal (t_type t) c lim))) with 7%Z. rewrite E.
      generalize (existsb (fun t => match t_body t with BJoint Acc _ | BJoint Jerk _ => uses_time t | _ => false end) ts), (existsb uses_time ts). intros x y. unfold uses_time.
      destruct K as [-> | ->]; destruct Ty as [-> | ->]; destruct x; reflexivity.
  Qed.
  Lemma none_of {A} (f : A -> bool) ts : (forall t, In t ts -> f t = false) -> existsb f ts = false.
  Proof using. intros H. destruct (existsb f ts) eqn:E; [|reflexivity]. apply existsb_exists in E as (t & X & E). rewrite (H t X) in E. discriminate. Qed.
End Doc.
