(** * C42: reuse of the OSQP workspace *)
From Coq Require Import List ZArith QArith Bool Arith Lia.
From Verif Require Import Num Common ScoExprModel EigenModel BackendModel BackendSpec.
Import ListNotations.
Local Open Scope nat_scope.

Section Reuse.
  Context {T : Type} {NT : Num T}.
  Definition same_pattern (a b : cscm T) : Prop :=
    m_rows a = m_rows b /\ m_cols a = m_cols b /\ c_rows (m_csc a) = c_rows (m_csc b) /\ c_ptrs (m_csc a) = c_ptrs (m_csc b) /\
    length (c_vals (m_csc a)) = length (c_vals (m_csc b)).
  (** the workspace has the patterns the model remembers in P_ and A_ *)
  Definition remembered (o : osqp T) : Prop :=
    forall w, o_ws o = Some w -> exists P A, o_P o = Some P /\ o_A o = Some A /\ same_pattern (w_P w) P /\ same_pattern (w_A w) A.
  (** entries wholly inside the first [k] bytes agree *)
  Definition agree_first (sz k : nat) (a b : list nat) : Prop :=
    forall i, i < length a -> i < length b -> (i + 1) * sz <= k -> nth i a 0 = nth i b 0.
  (** matrices of the same size that agree where the comparison looks are the same *)
  Definition telltale (sz : nat) (prev new : cscm T) : Prop :=
    m_rows prev = m_rows new -> m_cols prev = m_cols new -> length (c_vals (m_csc prev)) = length (c_vals (m_csc new)) ->
    agree_first sz (m_cols prev + 1) (c_ptrs (m_csc prev)) (c_ptrs (m_csc new)) ->
    agree_first sz (length (c_vals (m_csc prev))) (c_rows (m_csc prev)) (c_rows (m_csc new)) ->
    c_ptrs (m_csc prev) = c_ptrs (m_csc new) /\ c_rows (m_csc prev) = c_rows (m_csc new).
  (** the indices fit into the integer type *)
  Definition fits (sz : nat) (m : cscm T) : Prop :=
    Forall (fun v => v < 256 ^ sz) (c_ptrs (m_csc m)) /\ Forall (fun v => v < 256 ^ sz) (c_rows (m_csc m)).

  Lemma same_nats_eq a b : same_nats a b = true <-> a = b.
  Proof.
    revert b. induction a as [|x a IH]; intros [|y b]; cbn; try (split; [discriminate|discriminate]); [tauto|].
    rewrite andb_true_iff, IH, Nat.eqb_eq. split; [intros [-> ->]; reflexivity|intros [= -> ->]; auto].
  Qed.
  Lemma le_bytes_length sz v : length (le_bytes sz v) = sz.
  Proof. revert v. induction sz as [|sz IH]; intros v; cbn [le_bytes length]; auto. Qed.
  Lemma le_bytes_inj sz : forall v w, v < 256 ^ sz -> w < 256 ^ sz -> le_bytes sz v = le_bytes sz w -> v = w.
  Proof.
    induction sz as [|sz IH]; intros v w Hv Hw E; [cbn in Hv, Hw; lia|]. pose proof (f_equal (hd 0) E : v mod 256 = w mod 256) as E1. pose proof (f_equal (@tl nat) E : le_bytes sz (v / 256) = le_bytes sz (w / 256)) as E2. clear E.
    assert (K : v / 256 = w / 256).
    { apply IH; [| |exact E2]; apply Nat.div_lt_upper_bound; try lia; rewrite <- Nat.pow_succ_r'; assumption. }
    rewrite (Nat.div_mod v 256), (Nat.div_mod w 256), E1, K by lia. reflexivity.
  Qed.
  Lemma memcmp_agree sz : forall a b k, Forall (fun v => v < 256 ^ sz) a -> Forall (fun v => v < 256 ^ sz) b ->
    memcmp0 sz a b k = true -> agree_first sz k a b.
  Proof.
    unfold memcmp0, agree_first. induction a as [|x a IH]; intros b k Fa Fb E i Ha Hb Hi; [cbn in Ha; lia|].
    destruct b as [|y b]; [cbn in Hb; lia|]. inversion Fa as [|? ? Fx Fa']; inversion Fb as [|? ? Fy Fb']; subst.
    apply same_nats_eq in E. cbn [flat_map] in E. assert (Hk : sz <= k) by nia. rewrite !firstn_app in E.
    rewrite !(firstn_all2 (le_bytes sz _)) in E by (rewrite le_bytes_length; exact Hk). rewrite !le_bytes_length in E.
    assert (E1 : le_bytes sz x = le_bytes sz y /\ firstn (k - sz) (flat_map (le_bytes sz) a) = firstn (k - sz) (flat_map (le_bytes sz) b)).
    { pose proof (f_equal (firstn sz) E) as Q1. pose proof (f_equal (skipn sz) E) as Q2.
      rewrite !firstn_app, !firstn_all2, !le_bytes_length, Nat.sub_diag in Q1 by (rewrite le_bytes_length; lia). rewrite !firstn_O, !app_nil_r, ?(firstn_all2 (le_bytes sz y)) in Q1 by (rewrite le_bytes_length; lia).
      rewrite !skipn_app, !skipn_all2, !le_bytes_length, Nat.sub_diag in Q2 by (rewrite le_bytes_length; lia). rewrite ?(skipn_all2 (le_bytes sz y)) in Q2 by (rewrite le_bytes_length; lia). split; [exact Q1|exact Q2]. }
    destruct E1 as [Ex Er]. destruct i as [|i]; cbn [nth]; [apply (le_bytes_inj sz); assumption|].
    apply (IH b (k - sz)); auto; [apply same_nats_eq; exact Er|cbn in Ha; lia|cbn in Hb; lia|nia].
  Qed.
  Lemma check_pattern sz c prev new : fits sz prev -> fits sz new -> telltale sz prev new -> sparsity_equal sz c (Some prev) new = true ->
    same_pattern prev new /\ c = true.
  Proof.
    intros [F1 F2] [F3 F4] Ht E. cbn [sparsity_equal] in E. apply andb_true_iff in E as [E E6]. apply andb_true_iff in E as [E E5].
    apply andb_true_iff in E as [E E4]. apply andb_true_iff in E as [E E3]. apply andb_true_iff in E as [E1 E2].
    apply Nat.eqb_eq in E2, E3, E4. apply memcmp_agree in E5; auto. apply memcmp_agree in E6; auto.
    destruct (Ht E3 E2 E4 E5 E6) as [A B]. split; [repeat split; auto|exact E1].
  Qed.
  Lemma overwrite_same m P : same_pattern m P -> overwrite m (c_vals (m_csc P)) = P.
  Proof.
    intros (A & B & C & D & L). unfold overwrite. rewrite A, B, C, D, skipn_all2 by lia. rewrite app_nil_r. destruct P as [r k [a b c]]. reflexivity.
  Qed.
End Reuse.

(** Unless two matrices of the same size differ only where the comparison does not look, the workspace
    OSQP is run on holds exactly the current matrices, vectors and bounds, whether it was updated in place
    or created anew, and its patterns are the remembered ones again. *)
Theorem C42_reuse_partial :
  forall (T : Type) (NT : Num T) (inf : T) (sz : nat) (updating warm solved ok_vec ok_mat ok_setup : bool) (s : backend T) (o o' : osqp T) P q A l u,
    remembered o ->
    osqp_objective s = Ok (Some (P, q)) -> osqp_constraints inf s = Ok (Some (A, l, u)) ->
    fits sz P -> fits sz A ->
    (forall prev, o_P o = Some prev -> fits sz prev /\ telltale sz prev P) ->
    (forall prev, o_A o = Some prev -> fits sz prev /\ telltale sz prev A) ->
    create_or_update inf sz updating warm solved ok_vec ok_mat ok_setup s o = Ok (o', true) ->
    o_ws o' = Some {| w_P := P; w_q := q; w_A := A; w_l := l; w_u := u |} /\ o_P o' = Some P /\ o_A o' = Some A /\ remembered o'.
Proof.
  intros T NT inf sz updating warm solved okv okm oks s o o' P q A l u Hr EP EA FP FA HP HA E.
  unfold create_or_update in E. rewrite EP in E. cbn [obind] in E. rewrite EA in E. cbn [obind o_A o_ws] in E.
  assert (Fresh : forall o'', o'' = {| o_P := Some P; o_A := Some A; o_ws := Some {| w_P := P; w_q := q; w_A := A; w_l := l; w_u := u |} |} ->
    o_ws o'' = Some {| w_P := P; w_q := q; w_A := A; w_l := l; w_u := u |} /\ o_P o'' = Some P /\ o_A o'' = Some A /\ remembered o'').
  { intros o'' ->. cbn. repeat (split; [reflexivity|]). intros w [= <-]. exists P, A. cbn. repeat split. }
  destruct (o_ws o) as [w|] eqn:Ew.
  - destruct (Hr w Ew) as (P0 & A0 & E1 & E2 & S1 & S2). rewrite E1, E2 in E.
    match type of E with (if ?c then _ else _) = _ => destruct c eqn:B end.
    + injection E as <-. apply Fresh. do 2 (apply andb_true_iff in B as [B _]). apply andb_true_iff in B as [B B3]. apply andb_true_iff in B as [_ B2].
      destruct (HP P0 E1) as [F1 T1]. destruct (HA A0 E2) as [F2 T2].
      destruct (check_pattern sz _ P0 P F1 FP T1 B2) as [Q1 _]. destruct (check_pattern sz _ A0 A F2 FA T2 B3) as [Q2 _].
      assert (Tr : forall a b c : cscm T, same_pattern a b -> same_pattern b c -> same_pattern a c)
        by (intros a b c (? & ? & ? & ? & ?) (? & ? & ? & ? & ?); unfold same_pattern; repeat split; congruence).
      rewrite (overwrite_same (w_P w) P), (overwrite_same (w_A w) A); [reflexivity|eapply Tr; eassumption|eapply Tr; eassumption].
    + destruct oks; [|discriminate]. injection E as <-. apply Fresh. reflexivity.
  - destruct oks; [|discriminate]. injection E as <-. apply Fresh. reflexivity.
Qed.
Print Assumptions C42_reuse_partial.

(** With update_workspace off (the default), after a solve that failed, or without a workspace, the
    workspace is always created from the current problem. *)
Theorem C42_fresh :
  forall (T : Type) (NT : Num T) (inf : T) (sz : nat) (updating warm solved ok_vec ok_mat ok_setup : bool) (s : backend T) (o o' : osqp T) P q A l u,
    osqp_objective s = Ok (Some (P, q)) -> osqp_constraints inf s = Ok (Some (A, l, u)) ->
    updating = false \/ solved = false \/ o_ws o = None \/ ok_vec = false \/ ok_mat = false ->
    create_or_update inf sz updating warm solved ok_vec ok_mat ok_setup s o = Ok (o', true) ->
    o_ws o' = Some {| w_P := P; w_q := q; w_A := A; w_l := l; w_u := u |} /\ remembered o'.
Proof.
  intros T NT inf sz updating warm solved okv okm oks s o o' P q A l u EP EA Hc E.
  unfold create_or_update in E. rewrite EP in E. cbn [obind] in E. rewrite EA in E. cbn [obind o_A o_ws] in E.
  assert (Fresh : forall o'', o'' = {| o_P := Some P; o_A := Some A; o_ws := Some {| w_P := P; w_q := q; w_A := A; w_l := l; w_u := u |} |} ->
    o_ws o'' = Some {| w_P := P; w_q := q; w_A := A; w_l := l; w_u := u |} /\ remembered o'').
  { intros o'' ->. cbn. repeat (split; [reflexivity|]). intros w [= <-]. exists P, A. cbn. repeat split. }
  destruct (o_ws o) as [w|] eqn:Ew.
  - match type of E with (if ?c then _ else _) = _ => replace c with false in E end.
    + destruct oks; [|discriminate]. injection E as <-. apply Fresh. reflexivity.
    + symmetry. destruct Hc as [-> | [-> | [Q | [-> | ->]]]]; [| |discriminate| |]; rewrite ?andb_false_r; reflexivity.
  - destruct oks; [|discriminate]. injection E as <-. apply Fresh. reflexivity.
Qed.
Print Assumptions C42_fresh.

(** An exception in updateObjective or updateConstraints leaves the workspace as it was. *)
Theorem C42_failed_keeps :
  forall (T : Type) (NT : Num T) (inf : T) (sz : nat) (updating warm solved ok_vec ok_mat : bool) (s : backend T) (o o' : osqp T),
    create_or_update inf sz updating warm solved ok_vec ok_mat true s o = Ok (o', false) -> o_ws o' = o_ws o.
Proof.
  intros T NT inf sz updating warm solved okv okm s o o' E. unfold create_or_update in E.
  destruct (osqp_objective s) as [[[P q]|]| |]; cbn [obind] in E; try discriminate; [|injection E as <-; reflexivity].
  destruct (osqp_constraints inf s) as [[[[A l] u]|]| |]; cbn [obind] in E; try discriminate; [|injection E as <-; reflexivity].
  cbn [o_ws o_A] in E. destruct (o_ws o); [|discriminate]. destruct (_ && _)%bool in E; discriminate.
Qed.
Print Assumptions C42_failed_keeps.

(** ** Where the comparison fails *)
Definition steps (cs : list (call Q)) (sz : nat) (s : backend Q) (o : osqp Q) : option (backend Q * osqp Q * bool) :=
  match bcalls 1000%Q s cs with
  | Some s => match create_or_update 1000%Q sz true true true true true true (update s) o with
              | Ok (o, b) => Some (update s, o, b) | _ => None end
  | None => None
  end.
Definition no_osqp : osqp Q := {| o_P := None; o_A := None; o_ws := None |}.
Definition objective01 : quad Q := quad_inc (var_square 0) (var_square 1).
(** Moving a coefficient of the second constraint from the first to the second variable: sizes and numbers of
    entries agree, and so do the first bytes, so the new values are written into the old pattern.  Holds
    for 4-byte and for 8-byte integers. *)
Theorem C42_prefix_refuted :
  forall sz, sz = 4 \/ sz = 8 ->
  exists s1 o1 s2 o2 w A l u,
    steps [AddVar; AddVar; SetQuad objective01; AddCnt true (aff_var 0); AddCnt true (aff_var 0)] sz empty_backend no_osqp = Some (s1, o1, true) /\
    remembered o1 /\
    steps [RemoveCnt 1; AddCnt true (aff_var 1)] sz s1 o1 = Some (s2, o2, true) /\
    o_ws o2 = Some w /\ osqp_constraints 1000%Q s2 = Ok (Some (A, l, u)) /\
    c_rows (m_csc (w_A w)) = [0; 1; 2; 3] /\ c_ptrs (m_csc (w_A w)) = [0; 3; 4] /\
    c_rows (m_csc A) = [0; 2; 1; 3] /\ c_ptrs (m_csc A) = [0; 2; 4].
Proof.
  intros sz [-> | ->]; do 8 eexists; (split; [vm_compute; reflexivity|]); (split; [intros w Hw; cbn in Hw; injection Hw as <-; do 2 eexists; split; [reflexivity|]; split; [reflexivity|]; split; repeat split|]);
    (split; [vm_compute; reflexivity|]); (split; [reflexivity|]); (split; [vm_compute; reflexivity|]); repeat split.
Qed.
Print Assumptions C42_prefix_refuted.

(** Even when the patterns compared are identical, they are those of the last attempt, not those of the
    workspace: after an attempt that failed on a constraint over a removed variable, the objective's
    values are written into the pattern of the objective before. *)
Theorem C42_failed_attempt_refuted :
  exists s1 o1 s2 o2 s3 o3 w P q,
    steps [AddVar; AddVar; AddVar; SetQuad (var_square 0); Update; RemoveVar 2] 8 empty_backend no_osqp = Some (s1, o1, true) /\
    steps [SetQuad (var_square 1); AddCnt false (aff_var 2)] 8 s1 o1 = Some (s2, o2, false) /\
    steps [RemoveCnt 0] 8 s2 o2 = Some (s3, o3, true) /\
    o_P o2 = Some P /\ osqp_objective s3 = Ok (Some (P, q)) /\
    o_ws o3 = Some w /\ c_rows (m_csc (w_P w)) = [0] /\ c_ptrs (m_csc (w_P w)) = [0; 1; 1] /\
    c_rows (m_csc P) = [1] /\ c_ptrs (m_csc P) = [0; 0; 1].
Proof.
  do 9 eexists. split; [vm_compute; reflexivity|]. split; [vm_compute; reflexivity|]. split; [vm_compute; reflexivity|].
  split; [reflexivity|]. split; [vm_compute; reflexivity|]. split; [reflexivity|]. repeat split.
Qed.
Print Assumptions C42_failed_attempt_refuted.

Lemma small_fits v : v < 10 -> v < 256 ^ 8.
Proof. intros Hv. apply (Nat.lt_le_trans _ (256 ^ 1)); [rewrite Nat.pow_1_r; lia|apply Nat.pow_le_mono_r; lia]. Qed.
(** the hypotheses of [C42_reuse_partial] are met when only numbers change; the workspace is updated in place *)
Example C42_ex : exists s1 o1 s2 o2 P q A l u,
    steps [AddVar; AddVar; SetQuad objective01; AddCnt true (aff_var 0)] 8 empty_backend no_osqp = Some (s1, o1, true) /\
    steps [RemoveCnt 0; AddCnt true {| a_const := (-1)%Q; a_coeffs := [3%Q]; a_vars := [0] |}; SetBounds 1 0%Q 9%Q] 8 s1 o1 = Some (s2, o2, true) /\
    osqp_objective s2 = Ok (Some (P, q)) /\ osqp_constraints 1000%Q s2 = Ok (Some (A, l, u)) /\
    remembered o1 /\ fits 8 P /\ fits 8 A /\ (forall prev, o_P o1 = Some prev -> fits 8 prev /\ telltale 8 prev P) /\ (forall prev, o_A o1 = Some prev -> fits 8 prev /\ telltale 8 prev A) /\
    o_ws o2 = Some {| w_P := P; w_q := q; w_A := A; w_l := l; w_u := u |}.
Proof.
  do 9 eexists. split; [vm_compute; reflexivity|]. split; [vm_compute; reflexivity|]. split; [vm_compute; reflexivity|]. split; [vm_compute; reflexivity|].
  pose proof small_fits as K.
  split; [intros w Hw; cbn in Hw; injection Hw as <-; do 2 eexists; split; [reflexivity|]; split; [reflexivity|]; split; repeat split|].
  split; [split; cbn [m_csc c_ptrs c_rows]; repeat (apply Forall_cons; [apply K; auto with arith|]); apply Forall_nil|]. split; [split; cbn [m_csc c_ptrs c_rows]; repeat (apply Forall_cons; [apply K; auto with arith|]); apply Forall_nil|].
  split; [intros prev E; cbn [o_P] in E; injection E as <-;
    split; [split; cbn [m_csc c_ptrs c_rows]; repeat (apply Forall_cons; [apply K; auto with arith|]); apply Forall_nil|]; intros _ _ _ _ _; split; reflexivity|].
  split; [|vm_compute; reflexivity]. intros prev E. cbn [o_A] in E. injection E as <-.
  split; [split; cbn [m_csc c_ptrs c_rows]; repeat (apply Forall_cons; [apply K; auto with arith|]); apply Forall_nil|]. intros _ _ _ _ _. split; reflexivity.
Qed.
