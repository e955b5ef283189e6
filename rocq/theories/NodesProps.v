(** * Theorems about variable sets (C27) *)
From Coq Require Import List ZArith Bool Arith Reals Lra Lia.
From Verif Require Import Num NumFacts IfoptModel IfoptProofs NodesModel.
Import ListNotations.

Notation sizes vs := (list_sum (map v_size vs)).
(** the variables [vs] occupy consecutive ranges starting at [s] *)
Fixpoint tiled (s : nat) (vs : list (var R)) : Prop :=
  match vs with [] => True | v :: vs => v_index v = s /\ length (v_bnds v) = v_size v /\ tiled (s + v_size v) vs end.

Lemma sizes_app (a b : list (var R)) : sizes (a ++ b) = (sizes a + sizes b)%nat.
Proof. rewrite map_app, list_sum_app. reflexivity. Qed.
Lemma tiled_app s a b : tiled s (a ++ b) <-> tiled s a /\ tiled (s + sizes a) b.
Proof.
  revert s; induction a as [|v a IH]; intros s; cbn [app tiled].
  - cbn. rewrite Nat.add_0_r. tauto.
  - rewrite IH. change (sizes (v :: a)) with (v_size v + sizes a)%nat. rewrite Nat.add_assoc. tauto.
Qed.
Lemma tiled_shift d s vs : tiled s vs -> tiled (s + d) (map (var_shift d) vs).
Proof.
  revert s; induction vs as [|v vs IH]; intros s H; [exact I|]. destruct H as (H1 & H2 & H3). cbn [map tiled].
  split; [cbn; lia|]. split; [exact H2|]. change (v_size (var_shift d v)) with (v_size v). replace (s + d + v_size v)%nat with (s + v_size v + d)%nat by lia.
  apply IH, H3.
Qed.
Lemma sizes_shift d (vs : list (var R)) : sizes (map (var_shift d) vs) = sizes vs.
Proof. rewrite map_map. reflexivity. Qed.

Definition node_ok (nd : node R) : Prop := tiled 0 (nd_vars nd) /\ nd_length nd = sizes (nd_vars nd).

Lemma node_add_ok nd a nd' : node_ok nd -> node_add nd a = Val nd' -> node_ok nd'.
Proof.
  intros [H1 H2] E.
  assert (P : forall name n v, v_index v = nd_length nd -> length (v_bnds v) = v_size v -> v_size v = n -> node_ok (node_push nd name n v)).
  { intros name n v Hi Hb Hn. split; cbn [nd_vars nd_length node_push].
    - apply tiled_app. split; [exact H1|]. cbn [tiled]. rewrite Hi, H2. auto.
    - rewrite sizes_app. cbn. lia. }
  destruct a as [name value b|name nn values bs]; cbn [node_add] in E.
  - unfold var_scalar in E. unfold closest_valid_point in E. rewrite sized_val in E by reflexivity. cbn in E. injection E as <-. apply P; reflexivity.
  - unfold var_vector in E. destruct (Nat.eqb_spec nn (length bs)) as [E1|]; [|discriminate]. destruct (Nat.eqb_spec nn (length values)) as [E2|]; [|discriminate].
    unfold closest_valid_point in E. rewrite sized_val in E by lia. cbn [rbind] in E. injection E as <-.
    apply P; [reflexivity| |]; unfold v_size; cbn; rewrite map_length, combine_length; lia.
Qed.
Lemma node_adds_ok l nd nd' : node_ok nd -> node_adds nd l = Val nd' -> node_ok nd'.
Proof.
  revert nd; induction l as [|a l IH]; intros nd H E; cbn in E; [injection E as <-; exact H|].
  destruct (node_add nd a) eqn:Ea; cbn in E; try discriminate. eapply IH; [|exact E]. eapply node_add_ok; eauto.
Qed.
Lemma build_nodes_ok l nds : build_nodes l = Val nds -> Forall node_ok nds.
Proof.
  revert nds; induction l as [|a l IH]; intros nds E; cbn in E; [injection E as <-; constructor|].
  destruct (node_adds node_new a) eqn:Ea; cbn in E; try discriminate. destruct (build_nodes l); cbn in E; try discriminate.
  injection E as <-. constructor; [|apply IH; reflexivity]. eapply node_adds_ok; [|exact Ea]. split; [exact I|reflexivity].
Qed.

Definition nodes_ok (s : nodes R) : Prop :=
  tiled 0 (all_vars s) /\ ns_dim s = sizes (all_vars s) /\ ns_bounds s = flat_map v_bnds (all_vars s).

Lemma flat_map_flat_map {A B C} (f : B -> list C) (g : A -> list B) l : flat_map f (flat_map g l) = flat_map (fun x => flat_map f (g x)) l.
Proof. induction l as [|a l IH]; cbn; [reflexivity|]. rewrite flat_map_app, IH. reflexivity. Qed.
Lemma nodes_add_ok s nd : nodes_ok s -> node_ok nd -> nodes_ok (nodes_add s nd).
Proof.
  intros (H1 & H2 & H3) [N1 N2]. unfold nodes_ok, all_vars in *. cbn [nodes_add ns_nodes ns_dim ns_bounds]. rewrite flat_map_app. cbn [flat_map]. rewrite app_nil_r.
  split; [|split].
  - apply tiled_app. split; [exact H1|]. rewrite <- H2. cbn [node_shift nd_vars]. apply (tiled_shift _ 0), N1.
  - rewrite sizes_app. cbn [node_shift nd_vars nd_length]. rewrite sizes_shift. lia.
  - rewrite flat_map_app, H3. reflexivity.
Qed.
Lemma tiled_bounds s vs : tiled s vs -> length (flat_map v_bnds vs) = sizes vs.
Proof. revert s; induction vs as [|v vs IH]; intros s H; [reflexivity|]. destruct H as (_ & H2 & H3). cbn [flat_map]. rewrite app_length, H2, (IH _ H3). reflexivity. Qed.
Lemma values_length (vs : list (var R)) : length (flat_map v_vals vs) = sizes vs.
Proof. induction vs as [|v vs IH]; [reflexivity|]. cbn [flat_map]. rewrite app_length, IH. reflexivity. Qed.

Lemma build_ok l nds : build_nodes l = Val nds -> exists s, build l = Val s /\ nodes_ok s /\ ns_values s = flat_map v_vals (all_vars s) /\ length (ns_nodes s) = length nds.
Proof.
  intros E. unfold build. rewrite E. cbn [rbind]. pose proof (build_nodes_ok l nds E) as F. unfold nodes_new.
  set (s0 := {| ns_nodes := []; ns_bounds := []; ns_dim := 0; ns_values := [] |}).
  assert (G : forall nds s, Forall node_ok nds -> nodes_ok s -> nodes_ok (fold_left nodes_add nds s) /\ length (ns_nodes (fold_left nodes_add nds s)) = (length (ns_nodes s) + length nds)%nat).
  { clear. induction nds as [|nd nds IH]; intros s F H; [split; [exact H|cbn; lia]|]. inversion_clear F. cbn [fold_left].
    destruct (IH (nodes_add s nd)) as [A B]; [assumption|apply nodes_add_ok; assumption|]. split; [exact A|]. rewrite B. cbn. rewrite app_length. cbn. lia. }
  destruct (G nds s0 F) as [Hs L]; [split; [exact I|split; reflexivity]|]. set (s := fold_left nodes_add nds s0) in *. cbn zeta.
  assert (V : flat_map node_values (ns_nodes s) = flat_map v_vals (all_vars s)).
  { unfold all_vars, node_values. rewrite flat_map_flat_map. reflexivity. }
  destruct Hs as (H1 & H2 & H3). rewrite V, values_length, H3, (tiled_bounds _ _ H1), Nat.eqb_refl. eexists. split; [reflexivity|].
  split; [split; [exact H1|split; [exact H2|reflexivity]]|]. split; [reflexivity|exact L].
Qed.

(** ** Layout *)
(** Whatever is added, unless an addVar throws: the variables occupy consecutive ranges covering
    [0, rows), values and bounds are stacked in the same order, and the initial values respect the bounds. *)
Theorem C27_layout (l : list (list (add R))) (nds : list (node R)) : build_nodes l = Val nds ->
  exists s, build l = Val s /\ length (ns_nodes s) = length l /\
    (forall before v after, all_vars s = before ++ v :: after ->
       v_index v = sizes before /\ (v_index v + v_size v <= ns_dim s)%nat /\
       firstn (v_size v) (skipn (v_index v) (ns_values s)) = v_vals v /\
       firstn (v_size v) (skipn (v_index v) (ns_bounds s)) = v_bnds v) /\
    ns_dim s = sizes (all_vars s) /\ length (ns_values s) = ns_dim s /\ length (ns_bounds s) = ns_dim s.
Proof.
  intros E. destruct (build_ok l nds E) as (s & Es & (H1 & H2 & H3) & Hv & L). exists s. split; [exact Es|]. split.
  { rewrite L. clear -E. revert nds E; induction l as [|a l IH]; intros nds E; cbn in E; [injection E as <-; reflexivity|].
    destruct (node_adds node_new a); cbn in E; try discriminate. destruct (build_nodes l); cbn in E; try discriminate. injection E as <-. cbn. f_equal. apply IH. reflexivity. }
  split; [|rewrite Hv, H3, values_length, (tiled_bounds _ _ H1); auto].
  intros before v after Ea. rewrite Ea in *. apply tiled_app in H1 as [T1 T2]. cbn [tiled] in T2. destruct T2 as (I1 & I2 & I3). cbn in I1.
  rewrite I1. split; [reflexivity|]. split; [rewrite H2, sizes_app; cbn; lia|]. rewrite Hv, H3, !flat_map_app. cbn [flat_map].
  assert (K : forall {A} (f : var R -> list A) , length (flat_map f before) = sizes before -> length (f v) = v_size v ->
    firstn (v_size v) (skipn (sizes before) (flat_map f before ++ f v ++ flat_map f after)) = f v).
  { intros A f L1 L2. rewrite skipn_app, skipn_all2, L1, Nat.sub_diag by lia. cbn [app skipn]. rewrite firstn_app, <- L2, firstn_all, Nat.sub_diag. apply app_nil_r. }
  split; apply K; auto using values_length. eapply tiled_bounds, T1.
Qed.
Print Assumptions C27_layout.

Lemma tiled_cover s vs i : tiled s vs -> (s <= i < s + sizes vs)%nat -> exists before v after, vs = before ++ v :: after /\ (v_index v <= i < v_index v + v_size v)%nat.
Proof.
  revert s; induction vs as [|v vs IH]; intros s H Hi; [cbn in Hi; lia|]. destruct H as (H1 & H2 & H3). change (sizes (v :: vs)) with (v_size v + sizes vs)%nat in Hi.
  destruct (Nat.lt_ge_cases i (s + v_size v)) as [Hl|Hl].
  - exists [], v, vs. split; [reflexivity|lia].
  - destruct (IH _ H3) as (b & v' & a & -> & Hv); [lia|]. exists (v :: b), v', a. split; [reflexivity|exact Hv].
Qed.
Lemma tiled_index s before v after : tiled s (before ++ v :: after) -> v_index v = (s + sizes before)%nat.
Proof. intros H. apply tiled_app in H as [_ H]. apply H. Qed.

Lemma prefix_split {A} (b : list A) v a b' v' a' : b ++ v :: a = b' ++ v' :: a' -> (length b < length b')%nat -> exists m, b' = b ++ v :: m.
Proof.
  revert b'; induction b as [|x b IH]; intros [|y b'] E H; cbn in *; try lia; injection E as <- E.
  - exists b'. reflexivity.
  - destruct (IH b' E) as (m & ->); [lia|]. exists m. reflexivity.
Qed.
Lemma skipn_plus {A} m n (l : list A) : skipn m (skipn n l) = skipn (n + m) l.
Proof. revert l; induction n as [|n IH]; intros [|a l]; cbn; auto using skipn_nil. Qed.

(** Every element of the decision vector belongs to exactly one variable. *)
Theorem C27_unique_owner (l : list (list (add R))) (s : nodes R) (i : nat) : build l = Val s -> (i < ns_dim s)%nat ->
  exists k, (k < length (all_vars s))%nat /\
    (forall v, nth_error (all_vars s) k = Some v -> (v_index v <= i < v_index v + v_size v)%nat) /\
    (forall k' v, nth_error (all_vars s) k' = Some v -> (v_index v <= i < v_index v + v_size v)%nat -> k' = k).
Proof.
  intros E Hi. unfold build in E. destruct (build_nodes l) as [nds| |] eqn:En; try discriminate.
  destruct (build_ok l nds En) as (s' & Es & (H1 & H2 & _) & _). unfold build in Es. rewrite En in Es. rewrite Es in E. injection E as ->.
  destruct (tiled_cover 0 (all_vars s) i H1) as (b & v & a & Ea & Hv); [lia|]. exists (length b). rewrite Ea. split; [rewrite app_length; cbn; lia|]. split.
  - intros v'. rewrite nth_error_app2, Nat.sub_diag by lia. cbn. intros [= <-]. exact Hv.
  - intros k v' Hk Hv'. rewrite <- Ea in Hk. apply nth_error_split in Hk as (b' & a' & Ea' & <-).
    pose proof H1 as T. rewrite Ea in T. apply tiled_index in T as T1. pose proof H1 as T'. rewrite Ea' in T'. apply tiled_index in T' as T2.
    destruct (Nat.lt_trichotomy (length b') (length b)) as [Hl|[Hl|Hl]]; [exfalso|exact Hl|exfalso].
    + destruct (prefix_split b' v' a' b v a) as (m & Hb); [congruence|exact Hl|].
      assert (sizes b' + v_size v' <= sizes b)%nat by (rewrite Hb, sizes_app; cbn; lia). lia.
    + destruct (prefix_split b v a b' v' a') as (m & Hb); [congruence|exact Hl|].
      assert (sizes b + v_size v <= sizes b')%nat by (rewrite Hb, sizes_app; cbn; lia). lia.
Qed.
Print Assumptions C27_unique_owner.

(** ** Setting values *)
Lemma vars_set_spec x s vs : tiled s vs -> Forall (fun v => (0 < v_size v)%nat) vs -> (s + sizes vs <= length x)%nat ->
  exists vs', vars_set x vs = Val vs' /\
    Forall2 (fun v v' => v_name v' = v_name v /\ v_index v' = v_index v /\ v_bnds v' = v_bnds v /\ v_size v' = v_size v /\
      v_vals v' = firstn (v_size v) (skipn (v_index v) x)) vs vs' /\
    flat_map v_vals vs' = firstn (sizes vs) (skipn s x) /\ tiled s vs'.
Proof.
  revert s; induction vs as [|v vs IH]; intros s H P L; cbn [vars_set].
  - exists []. split; [reflexivity|]. split; [constructor|]. split; [reflexivity|exact I].
  - destruct H as (H1 & H2 & H3). inversion_clear P. change (sizes (v :: vs)) with (v_size v + sizes vs)%nat in *.
    unfold var_set. rewrite H1, !(proj2 (Nat.ltb_lt _ _)) by lia. cbn [andb rbind].
    destruct (IH _ H3 H0) as (vs' & -> & F & E & T); [lia|]. cbn [rbind].
    set (v' := {| v_name := _; v_index := _; v_vals := _; v_bnds := _ |}).
    assert (Sz : v_size v' = v_size v) by (unfold v', v_size; cbn; rewrite firstn_length, skipn_length; unfold v_size in *; lia).
    eexists. split; [reflexivity|]. split; [constructor; [|exact F]|].
    + split; [reflexivity|]. split; [symmetry; exact H1|]. split; [reflexivity|]. split; [exact Sz|]. cbn. rewrite H1. reflexivity.
    + split.
      * cbn [flat_map]. rewrite E. cbn [v' v_vals].
        rewrite <- (firstn_skipn (v_size v) (firstn (v_size v + sizes vs) (skipn s x))).
        rewrite firstn_firstn, Nat.min_l by lia. f_equal. rewrite skipn_firstn_comm, skipn_plus. f_equal. lia.
      * cbn [tiled]. rewrite Sz. auto.
Qed.

Lemma nodes_set_spec x s nds : tiled s (flat_map nd_vars nds) -> Forall (fun v => (0 < v_size v)%nat) (flat_map nd_vars nds) ->
  (s + sizes (flat_map nd_vars nds) <= length x)%nat ->
  exists nds', nodes_set_loop x nds = Val nds' /\ length nds' = length nds /\
    Forall2 (fun v v' => v_name v' = v_name v /\ v_index v' = v_index v /\ v_bnds v' = v_bnds v /\ v_size v' = v_size v /\
      v_vals v' = firstn (v_size v) (skipn (v_index v) x)) (flat_map nd_vars nds) (flat_map nd_vars nds') /\
    flat_map v_vals (flat_map nd_vars nds') = firstn (sizes (flat_map nd_vars nds)) (skipn s x) /\ tiled s (flat_map nd_vars nds').
Proof.
  revert s; induction nds as [|nd nds IH]; intros s H P L; cbn [nodes_set_loop flat_map] in *.
  - exists []. split; [reflexivity|]. split; [reflexivity|]. split; [constructor|]. split; [reflexivity|exact I].
  - apply tiled_app in H as [T1 T2]. apply Forall_app in P as [P1 P2]. rewrite sizes_app in L.
    destruct (vars_set_spec x s _ T1 P1) as (vs' & Ev & F & E & T); [lia|].
    destruct (IH _ T2 P2) as (nds' & En & Ln & F' & E' & T'); [lia|].
    unfold node_set. rewrite Ev. cbn [rbind]. rewrite En. cbn [rbind]. eexists. split; [reflexivity|]. cbn [flat_map nd_vars length].
    split; [lia|]. split; [apply Forall2_app; assumption|]. split.
    + rewrite flat_map_app, E, E', sizes_app.
      rewrite <- (firstn_skipn (sizes (nd_vars nd)) (firstn (sizes (nd_vars nd) + _) (skipn s x))).
      rewrite firstn_firstn, Nat.min_l by lia. f_equal. rewrite skipn_firstn_comm, skipn_plus. f_equal. lia.
    + apply tiled_app. split; [exact T|]. replace (sizes vs') with (sizes (nd_vars nd)); [exact T'|].
      clear -F. induction F as [|v v' l l' (_ & _ & _ & Hs & _) F IH]; [reflexivity|].
      change (v_size v + sizes l = v_size v' + sizes l')%nat. lia.
Qed.

(** Setting a vector of the right size succeeds when every variable has at least one element; the
    values are then that vector, every variable holds its own slice, and nothing else changes. *)
Theorem C27_set_get (l : list (list (add R))) (s : nodes R) (x : list R) : build l = Val s ->
  length x = ns_dim s -> Forall (fun v => (0 < v_size v)%nat) (all_vars s) ->
  exists s', nodes_set x s = Val s' /\ ns_values s' = x /\ flat_map node_values (ns_nodes s') = x /\
    ns_bounds s' = ns_bounds s /\ ns_dim s' = ns_dim s /\ length (ns_nodes s') = length (ns_nodes s) /\
    Forall2 (fun v v' => v_name v' = v_name v /\ v_index v' = v_index v /\ v_bnds v' = v_bnds v /\ v_size v' = v_size v /\
      v_vals v' = firstn (v_size v) (skipn (v_index v) x)) (all_vars s) (all_vars s').
Proof.
  intros E Hx P. unfold build in E. destruct (build_nodes l) as [nds| |] eqn:En; try discriminate.
  destruct (build_ok l nds En) as (s' & Es & (H1 & H2 & _) & _). unfold build in Es. rewrite En in Es. rewrite Es in E. injection E as ->.
  destruct (nodes_set_spec x 0 (ns_nodes s) H1 P) as (nds' & E1 & E2 & E3 & E4 & E5); [unfold all_vars in H2; lia|].
  unfold nodes_set. rewrite E1. cbn [rbind]. eexists. split; [reflexivity|]. cbn. split; [reflexivity|]. split.
  - unfold node_values. rewrite <- flat_map_flat_map, E4. cbn [skipn]. unfold all_vars in H2. rewrite <- H2, <- Hx. apply firstn_all.
  - repeat split; auto.
Qed.
Print Assumptions C27_set_get.

(** A variable without elements can be added, but then no vector can be set (with assertions). *)
Theorem C27_empty_variable_refuted :
  exists (l : list (list (add R))) (s : nodes R), build l = Val s /\ ns_dim s = 1%nat /\ forall x, length x = ns_dim s -> nodes_set x s = Bad.
Proof.
  exists [[AddScalar 0 0%R {| b_lo := None; b_hi := None |}; AddVector 1 0 [] []]]. eexists. split; [reflexivity|]. split; [reflexivity|].
  intros [|a [|b x]] H; try discriminate. reflexivity.
Qed.
Print Assumptions C27_empty_variable_refuted.

(** getVar returns the latest variable added under that name. *)
Theorem C27_get_var (nd : node R) (a : add R) (nd' : node R) (name : nat) :
  node_add nd a = Val nd' -> (match a with AddScalar n _ _ => n | AddVector n _ _ _ => n end) = name ->
  exists v, node_get nd' name = Val v /\ v_name v = name /\ v_index v = nd_length nd /\ nd_vars nd' = nd_vars nd ++ [v].
Proof.
  assert (P : forall n v, v_name v = name -> v_index v = nd_length nd -> exists v0, node_get (node_push nd name n v) name = Val v0 /\ v_name v0 = name /\ v_index v0 = nd_length nd /\ nd_vars (node_push nd name n v) = nd_vars nd ++ [v0]).
  { intros n v Hn Hi. exists v. unfold node_get. cbn. rewrite Nat.eqb_refl, nth_error_app2, Nat.sub_diag by lia. cbn. auto. }
  destruct a as [m value b|m nn values bs]; cbn [node_add]; intros E <-.
  - unfold var_scalar, closest_valid_point in E. rewrite sized_val in E by reflexivity. cbn in E. injection E as <-. apply P; reflexivity.
  - unfold var_vector in E. destruct (nn =? length bs)%nat; [|discriminate]. destruct (nn =? length values)%nat; [|discriminate].
    destruct (closest_valid_point bs values); cbn in E; try discriminate. injection E as <-. apply P; reflexivity.
Qed.
Print Assumptions C27_get_var.

(** addVar throws exactly when the numbers of names, values and bounds differ. *)
Theorem C27_throws (nd : node R) (name nn : nat) (values : list R) (bs : list (bnd R)) :
  node_add nd (AddVector name nn values bs) = Throws <-> ~ (nn = length bs /\ nn = length values).
Proof.
  cbn [node_add]. unfold var_vector. destruct (Nat.eqb_spec nn (length bs)) as [E1|E1]; [|split; [tauto|reflexivity]].
  destruct (Nat.eqb_spec nn (length values)) as [E2|E2]; [|split; [tauto|reflexivity]].
  unfold closest_valid_point. rewrite sized_val by lia. cbn. split; [discriminate|tauto].
Qed.
Print Assumptions C27_throws.

Example C27_ex : exists s, build [[AddScalar 0 1%R {| b_lo := None; b_hi := None |}; AddVector 1 2 [2; 3]%R [{| b_lo := None; b_hi := None |}; {| b_lo := None; b_hi := None |}]]; []; [AddScalar 0 4%R {| b_lo := None; b_hi := None |}]] = Val s /\
  map v_index (all_vars s) = [0; 1; 3]%nat /\ ns_dim s = 4%nat /\ ns_values s = [1; 2; 3; 4]%R /\ Forall (fun v => (0 < v_size v)%nat) (all_vars s).
Proof. eexists. split; [reflexivity|]. split; [reflexivity|]. split; [reflexivity|]. split; [reflexivity|]. repeat constructor. Qed.
