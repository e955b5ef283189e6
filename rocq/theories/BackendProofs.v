(** * Backends: the compaction loop and the relation between a backend and its history of calls *)
From Coq Require Import List ZArith Bool Arith Lia Sorted.
From Verif Require Import Num Common ScoExprModel EigenModel BackendModel BackendSpec.
Import ListNotations.

(** ** lists *)
Lemma set_nth_length {A} (l : list A) i v : length (set_nth l i v) = length l.
Proof. revert i. induction l as [|a l IH]; intros [|i]; cbn; auto. Qed.
Lemma set_nth_nth {A} (l : list A) i j v d :
  nth j (set_nth l i v) d = if (j =? i) && (i <? length l) then v else nth j l d.
Proof.
  revert i j. induction l as [|a l IH]; intros i j.
  - cbn. destruct i, j; cbn; rewrite ?andb_false_r; reflexivity.
  - destruct i, j; cbn [set_nth nth length]; try reflexivity. rewrite IH. cbn [Nat.eqb]. reflexivity.
Qed.
Lemma nth_error_ok {A} (l : list A) i d v : nth_error l i = Some v -> nth i l d = v /\ i < length l.
Proof. intros E. split; [apply nth_error_nth; exact E|]. apply nth_error_Some. congruence. Qed.
Lemma firstn_set_nth_S {A} (l : list A) k v : k < length l -> firstn (S k) (set_nth l k v) = firstn k l ++ [v].
Proof. revert l. induction k as [|k IH]; intros [|a l] H; cbn in H; try lia; [reflexivity|].
  cbn [set_nth]. change (a :: firstn (S k) (set_nth l k v) = a :: firstn k l ++ [v]). rewrite IH by lia. reflexivity. Qed.
Lemma set_nth_map {A B} (f g : A -> B) l i v :
  i < length l -> (forall j a, nth_error l j = Some a -> g a = if j =? i then v else f a) ->
  set_nth (map f l) i v = map g l.
Proof.
  revert i. induction l as [|a l IH]; intros i Hi H; [cbn in Hi; lia|]. destruct i as [|i].
  - cbn. f_equal; [symmetry; apply (H 0 a); reflexivity|]. apply map_ext_in. intros b Hb.
    apply In_nth_error in Hb as (j & Hj). symmetry. apply (H (S j) b). exact Hj.
  - cbn. f_equal; [symmetry; apply (H 0 a); reflexivity|]. cbn in Hi. apply IH; [lia|].
    intros j b Hj. apply (H (S j) b). exact Hj.
Qed.
Lemma sorted_same (l l' : list nat) : StronglySorted lt l -> StronglySorted lt l' -> (forall x, In x l <-> In x l') -> l = l'.
Proof.
  revert l'. induction l as [|a l IH]; intros [|b l'] H1 H2 H.
  - reflexivity.
  - exfalso. apply (H b). left. reflexivity.
  - exfalso. apply (H a). left. reflexivity.
  - inversion H1 as [|? ? S1 F1]; inversion H2 as [|? ? S2 F2]; subst. rewrite Forall_forall in F1, F2.
    assert (a = b).
    { destruct (proj1 (H a) (or_introl eq_refl)) as [E|E]; [congruence|].
      destruct (proj2 (H b) (or_introl eq_refl)) as [E'|E']; [congruence|].
      specialize (F1 b E'). specialize (F2 a E). lia. }
    subst b. f_equal. apply IH; auto. intros x. split; intros Hx.
    + destruct (proj1 (H x) (or_intror Hx)) as [->|Q]; [|exact Q]. specialize (F1 x Hx). lia.
    + destruct (proj2 (H x) (or_intror Hx)) as [->|Q]; [|exact Q]. specialize (F2 x Hx). lia.
Qed.
Lemma sorted_filter (P : nat -> bool) l : StronglySorted lt l -> StronglySorted lt (filter P l).
Proof.
  induction 1 as [|a l S IH F]; [constructor|]. cbn. destruct (P a); [|exact IH]. constructor; [exact IH|].
  apply Forall_forall. intros x Hx. apply filter_In in Hx as [Hx _]. rewrite Forall_forall in F. auto.
Qed.
Lemma sorted_seq n : forall k, StronglySorted lt (seq k n).
Proof. induction n as [|n IH]; intros k; cbn; constructor; [apply IH|]. apply Forall_forall. intros x Hx. apply in_seq in Hx. lia. Qed.
Lemma sorted_nodup l : StronglySorted lt l -> NoDup l.
Proof. induction 1 as [|a l S IH F]; constructor; [|exact IH]. intros Hin. rewrite Forall_forall in F. specialize (F a Hin). lia. Qed.
Lemma sorted_snoc l n : StronglySorted lt l -> Forall (fun x => x < n) l -> StronglySorted lt (l ++ [n]).
Proof.
  induction 1 as [|a l S IH F]; intros H; cbn; [repeat constructor|]. inversion H; subst. constructor; [apply IH; assumption|].
  apply Forall_app. split; [exact F|]. constructor; [assumption|constructor].
Qed.

(** ** the compaction loop *)
Definition kept (reps : list rep) (id : nat) : bool := negb (r_removed (nth id reps no_rep)).
Fixpoint number (reps : list rep) (k : nat) (l : list nat) : list rep :=
  match l with [] => reps | id :: l => number (set_nth reps id {| r_index := k; r_removed := false |}) (S k) l end.

Lemma kept_set reps id k : kept reps id = true -> forall id', kept (set_nth reps id {| r_index := k; r_removed := false |}) id' = kept reps id'.
Proof.
  intros H id'. unfold kept in *. rewrite set_nth_nth. destruct (id' =? id) eqn:E; cbn [andb]; [|reflexivity].
  apply Nat.eqb_eq in E; subst. destruct (id <? length reps); cbn [r_removed negb]; [symmetry; exact H|reflexivity].
Qed.

Lemma compact_loop_spec {A B} (f : nat -> A) (g : nat -> B) da db : forall todo iold inew reps ids a b ids0,
  inew <= iold -> iold + todo = length ids0 -> length ids = length ids0 -> length a = length ids0 -> length b = length ids0 ->
  (forall j, iold <= j < length ids0 -> nth j ids 0 = nth j ids0 0 /\ nth j a da = f (nth j ids0 0) /\ nth j b db = g (nth j ids0 0)) ->
  let rest := filter (kept reps) (skipn iold ids0) in
  compact_loop todo iold inew reps ids a b da db =
    (number reps inew rest, firstn inew ids ++ rest, firstn inew a ++ map f rest, firstn inew b ++ map g rest).
Proof.
  induction todo as [|todo IH]; intros iold inew reps ids a b ids0 H1 H2 H3 H4 H5 H6 rest.
  - cbn [compact_loop]. unfold rest. rewrite skipn_all2 by lia. cbn [filter map number]. rewrite !app_nil_r. reflexivity.
  - destruct (H6 iold ltac:(lia)) as (E1 & E2 & E3).
    assert (Hs : skipn iold ids0 = nth iold ids0 0 :: skipn (S iold) ids0).
    { clear - H2. assert (H : iold < length ids0) by lia. clear H2. revert ids0 H.
      induction iold as [|i IH]; intros [|x l] H; cbn [length] in H; try lia; [reflexivity|].
      cbn [skipn nth]. rewrite (IH l) by lia. reflexivity. }
    cbn [compact_loop]. rewrite E1, E2, E3. unfold rest. rewrite Hs. cbn [filter].
    change (negb (r_removed (nth (nth iold ids0 0) reps no_rep))) with (kept reps (nth iold ids0 0)).
    destruct (kept reps (nth iold ids0 0)) eqn:K.
    + rewrite (IH (S iold) (S inew) _ _ _ _ ids0); rewrite ?set_nth_length; try lia.
      * rewrite !firstn_set_nth_S by lia.
        assert (F : filter (kept (set_nth reps (nth iold ids0 0) {| r_index := inew; r_removed := false |})) (skipn (S iold) ids0)
                    = filter (kept reps) (skipn (S iold) ids0)).
        { apply filter_ext. intros x. apply kept_set. exact K. }
        rewrite F. cbn [number map]. rewrite <- !app_assoc. reflexivity.
      * intros j Hj. rewrite !set_nth_nth. destruct (Nat.eqb_spec j inew); [lia|]. cbn [andb]. apply H6. lia.
    + rewrite (IH (S iold) inew reps ids a b ids0); try lia; [reflexivity|]. intros j Hj. apply H6. lia.
Qed.

Lemma compact_spec {A B} (f : nat -> A) (g : nat -> B) da db reps ids :
  compact reps ids (map f ids) (map g ids) da db =
    (number reps 0 (filter (kept reps) ids), filter (kept reps) ids, map f (filter (kept reps) ids), map g (filter (kept reps) ids)).
Proof.
  unfold compact. rewrite (compact_loop_spec f g da db (length ids) 0 0 reps ids (map f ids) (map g ids) ids); rewrite ?map_length; try lia.
  - reflexivity.
  - intros j Hj. split; [reflexivity|]. split.
    + rewrite (nth_indep _ da (f 0)) by (rewrite map_length; lia). apply map_nth.
    + rewrite (nth_indep _ db (g 0)) by (rewrite map_length; lia). apply map_nth.
Qed.

Lemma number_length reps k l : length (number reps k l) = length reps.
Proof. revert reps k. induction l as [|a l IH]; intros reps k; cbn; [reflexivity|]. rewrite IH. apply set_nth_length. Qed.
Lemma number_other l : forall reps k id, ~ In id l -> nth id (number reps k l) no_rep = nth id reps no_rep.
Proof.
  induction l as [|a l IH]; intros reps k id H; cbn; [reflexivity|]. rewrite IH; [|intros Q; apply H; right; exact Q].
  rewrite set_nth_nth. destruct (Nat.eqb_spec id a); [subst; exfalso; apply H; left; reflexivity|reflexivity].
Qed.
Lemma number_at l : forall reps k p id, NoDup l -> Forall (fun x => x < length reps) l -> nth_error l p = Some id ->
  nth id (number reps k l) no_rep = {| r_index := k + p; r_removed := false |}.
Proof.
  induction l as [|a l IH]; intros reps k p id N F E; [destruct p; discriminate|].
  inversion N as [|? ? N1 N2]; inversion F as [|? ? F1 F2]; subst. destruct p as [|p]; cbn [nth_error number] in *.
  - inversion E; subst. rewrite number_other by exact N1. rewrite set_nth_nth, Nat.eqb_refl.
    apply Nat.ltb_lt in F1. rewrite F1. cbn [andb]. f_equal. lia.
  - rewrite (IH _ (S k) p id N2); [f_equal; lia| |exact E]. rewrite set_nth_length. exact F2.
Qed.
Lemma number_kept l : forall reps k, Forall (fun x => kept reps x = true) l -> forall id, kept (number reps k l) id = kept reps id.
Proof.
  induction l as [|a l IH]; intros reps k F id; cbn; [reflexivity|]. inversion F as [|? ? F1 F2]; subst.
  rewrite IH; [apply kept_set; exact F1|]. apply Forall_forall. intros x Hx. rewrite kept_set by exact F1.
  rewrite Forall_forall in F2. auto.
Qed.

(** ** a heap of reps, the list of positions and a flag per created object *)
Record heap_ok (reps : list rep) (ids : list nat) (gone : list bool) : Prop := {
  ho_len : length reps = length gone;
  ho_flag : forall id, kept reps id = negb (nth id gone false);
  ho_sorted : StronglySorted lt ids;
  ho_range : Forall (fun id => id < length gone) ids;
  ho_live : forall id, id < length gone -> nth id gone false = false -> In id ids;
  ho_index : forall p id, nth_error ids p = Some id -> r_index (nth id reps no_rep) = p }.

Lemma heap_add reps ids gone : heap_ok reps ids gone ->
  heap_ok (reps ++ [{| r_index := length ids; r_removed := false |}]) (ids ++ [length reps]) (gone ++ [false]).
Proof.
  intros [L F S R V I]. constructor.
  - rewrite !app_length. cbn. lia.
  - intros id. unfold kept in *. destruct (Nat.lt_ge_cases id (length reps)).
    + rewrite !app_nth1 by lia. apply F.
    + rewrite !app_nth2 by lia. rewrite <- L. destruct (id - length reps) as [|[|k]]; reflexivity.
  - apply sorted_snoc; [exact S|]. rewrite L. exact R.
  - apply Forall_app. split; [|constructor; [rewrite app_length; cbn; lia|constructor]].
    eapply Forall_impl; [|exact R]. cbn. intros a Ha. rewrite app_length. cbn. lia.
  - intros id H1 H2. rewrite app_length in H1. cbn in H1. apply in_or_app. destruct (Nat.lt_ge_cases id (length gone)) as [Q|Q].
    + left. apply V; [exact Q|]. rewrite app_nth1 in H2 by lia. exact H2.
    + right. left. lia.
  - intros p id E. destruct (Nat.lt_ge_cases p (length ids)) as [Q|Q].
    + rewrite nth_error_app1 in E by exact Q. assert (id < length gone) by (rewrite Forall_forall in R; apply R; eapply nth_error_In; exact E).
      rewrite app_nth1 by lia. apply I. exact E.
    + rewrite nth_error_app2 in E by exact Q. destruct (p - length ids) as [|[|k]] eqn:D; try discriminate. inversion E; subst.
      rewrite app_nth2 by lia. rewrite Nat.sub_diag. cbn. lia.
Qed.
Lemma heap_remove reps ids gone id0 : heap_ok reps ids gone -> id0 < length gone ->
  heap_ok (mark reps id0) ids (set_nth gone id0 true).
Proof.
  intros [L F S R V I] H. unfold mark. constructor.
  - rewrite !set_nth_length. exact L.
  - intros id. unfold kept in *. rewrite !set_nth_nth, L. destruct ((id =? id0) && (id0 <? length gone)); [reflexivity|apply F].
  - exact S.
  - rewrite set_nth_length. exact R.
  - intros id H1 H2. rewrite set_nth_length in H1. rewrite set_nth_nth in H2.
    destruct ((id =? id0) && (id0 <? length gone)); [discriminate|]. auto.
  - intros p id E. rewrite set_nth_nth. destruct (Nat.eqb_spec id id0); cbn [andb]; [|auto]. subst.
    destruct (id0 <? length reps); cbn [r_index]; auto.
Qed.
Lemma heap_update reps ids gone : heap_ok reps ids gone ->
  let live := filter (fun id => negb (nth id gone false)) (seq 0 (length gone)) in
  filter (kept reps) ids = live /\ heap_ok (number reps 0 live) live gone.
Proof.
  intros [L F S R V I] live.
  assert (E : filter (kept reps) ids = live).
  { apply sorted_same; [apply sorted_filter; exact S|apply sorted_filter, sorted_seq|]. intros x. unfold live. rewrite !filter_In, F, in_seq.
    rewrite Forall_forall in R. split; intros [H1 H2]; (split; [|exact H2]).
    - specialize (R x H1). cbn beta in R. lia.
    - apply V; [lia|]. destruct (nth x gone false); [discriminate|reflexivity]. }
  assert (K : Forall (fun x => kept reps x = true) live).
  { apply Forall_forall. intros x Hx. rewrite <- E in Hx. apply filter_In in Hx. apply Hx. }
  assert (Sl : StronglySorted lt live) by apply sorted_filter, sorted_seq.
  assert (Rl : Forall (fun id => id < length gone) live).
  { apply Forall_forall. intros x Hx. apply filter_In in Hx as [Hx _]. apply in_seq in Hx. lia. }
  split; [exact E|]. constructor.
  - rewrite number_length. exact L.
  - intros id. rewrite number_kept by exact K. apply F.
  - exact Sl.
  - exact Rl.
  - intros id H1 H2. unfold live. apply filter_In. split; [apply in_seq; lia|]. rewrite H2. reflexivity.
  - intros p id Hp. rewrite (number_at live reps 0 p id); [reflexivity|apply sorted_nodup; exact Sl| |exact Hp].
    rewrite L. exact Rl.
Qed.

Section Sim.
  Context {T : Type} {NT : Num T}.
  Variable inf : T.
  Lemma nth_gone (f : list (vfact T)) id : nth id (map v_gone f) false = v_gone (nth id f no_v).
  Proof. exact (map_nth v_gone f no_v id). Qed.
  Lemma nth_cgone (f : list (cfact T)) id : nth id (map c_gone f) false = c_gone (nth id f no_c).
  Proof. exact (map_nth c_gone f no_c id). Qed.

  Record sim (s : backend T) (vf : list (vfact T)) (cf : list (cfact T)) : Prop := {
    sm_v : heap_ok (b_vreps s) (b_vars s) (map v_gone vf);
    sm_lo : b_lbs s = map (fun id => v_lo (nth id vf no_v)) (b_vars s);
    sm_hi : b_ubs s = map (fun id => v_hi (nth id vf no_v)) (b_vars s);
    sm_c : heap_ok (b_creps s) (b_cnts s) (map c_gone cf);
    sm_expr : b_exprs s = map (fun id => c_expr (nth id cf no_c)) (b_cnts s);
    sm_ineq : b_ineq s = map (fun id => c_ineq (nth id cf no_c)) (b_cnts s) }.

  Lemma heap_in_range reps ids gone id : heap_ok reps ids gone -> In id ids -> id < length gone.
  Proof. intros H Hin. pose proof (ho_range _ _ _ H) as F. rewrite Forall_forall in F. auto. Qed.

  Lemma live_v_eq (f : list (vfact T)) : live_v f = filter (fun id => negb (nth id (map v_gone f) false)) (seq 0 (length (map v_gone f))).
  Proof. unfold live_v. rewrite map_length. apply filter_ext. intros id. rewrite nth_gone. reflexivity. Qed.
  Lemma live_c_eq (f : list (cfact T)) : live_c f = filter (fun id => negb (nth id (map c_gone f) false)) (seq 0 (length (map c_gone f))).
  Proof. unfold live_c. rewrite map_length. apply filter_ext. intros id. rewrite nth_cgone. reflexivity. Qed.

  Lemma sim_update s vf cf : sim s vf cf ->
    sim (update s) vf cf /\ b_vars (update s) = live_v vf /\ b_cnts (update s) = live_c cf.
  Proof.
    intros [Hv Hl Hu Hc He Hi].
    destruct (heap_update _ _ _ Hv) as [Ev Nv]. destruct (heap_update _ _ _ Hc) as [Ec Nc].
    rewrite <- live_v_eq in Ev, Nv. rewrite <- live_c_eq in Ec, Nc.
    unfold update. rewrite Hl, Hu, compact_spec. cbn [with_vars b_creps b_cnts b_exprs b_ineq]. rewrite He, Hi, compact_spec.
    unfold with_cnts. cbn [with_vars b_vreps b_vars b_lbs b_ubs b_creps b_cnts b_exprs b_ineq b_obj]. rewrite Ev, Ec.
    split; [|split; reflexivity]. constructor; cbn; auto.
  Qed.

  Lemma sim_call s vf cf c s' :
    sim s vf cf ->
    match c with
    | RemoveVar id => id < length vf
    | RemoveCnt id => id < length cf
    | SetBounds id _ _ => id < length vf /\ v_gone (nth id vf no_v) = false
    | _ => True
    end ->
    bcall inf s c = Some s' -> sim s' (note_v inf vf c) (note_c cf c).
  Proof.
    intros H Hs E. destruct c as [|id|id l u|i e|id|e|q|]; cbn [bcall note_v note_c] in *; try (injection E as <-).
    - destruct H as [Hv Hl Hu Hc He Hi]. pose proof (ho_len _ _ _ Hv) as L. rewrite map_length in L.
      constructor; cbn [add_var with_vars b_vreps b_vars b_lbs b_ubs b_creps b_cnts b_exprs b_ineq b_obj]; auto.
      + rewrite map_app. apply heap_add. exact Hv.
      + rewrite Hl, map_app. cbn [map]. f_equal.
        * apply map_ext_in. intros id Hid. apply (heap_in_range _ _ _ _ Hv) in Hid. rewrite map_length in Hid. rewrite app_nth1 by lia. reflexivity.
        * rewrite app_nth2, L, Nat.sub_diag by lia. reflexivity.
      + rewrite Hu, map_app. cbn [map]. f_equal.
        * apply map_ext_in. intros id Hid. apply (heap_in_range _ _ _ _ Hv) in Hid. rewrite map_length in Hid. rewrite app_nth1 by lia. reflexivity.
        * rewrite app_nth2, L, Nat.sub_diag by lia. reflexivity.
    - destruct H as [Hv Hl Hu Hc He Hi].
      constructor; cbn [remove_var with_vars b_vreps b_vars b_lbs b_ubs b_creps b_cnts b_exprs b_ineq b_obj]; auto.
      + replace (map v_gone _) with (set_nth (map v_gone vf) id true).
        * apply heap_remove; [exact Hv|]. rewrite map_length. exact Hs.
        * clear. revert id. induction vf as [|a f IH]; intros [|id]; cbn [set_nth map nth]; try reflexivity.
          f_equal. rewrite (IH id). reflexivity.
      + rewrite Hl. apply map_ext. intros j. rewrite set_nth_nth. destruct (Nat.eqb_spec j id); cbn [andb]; [subst|reflexivity].
        destruct (id <? length vf); reflexivity.
      + rewrite Hu. apply map_ext. intros j. rewrite set_nth_nth. destruct (Nat.eqb_spec j id); cbn [andb]; [subst|reflexivity].
        destruct (id <? length vf); reflexivity.
    - destruct Hs as [Hs Hg]. destruct H as [Hv Hl Hu Hc He Hi]. unfold set_bounds in E.
      assert (Hin : In id (b_vars s)).
      { apply (ho_live _ _ _ Hv); [rewrite map_length; exact Hs|]. rewrite nth_gone. exact Hg. }
      apply In_nth_error in Hin as (p & Hp). rewrite (ho_index _ _ _ Hv p id Hp) in E.
      assert (Hlt : p < length (b_vars s)) by (apply nth_error_Some; congruence).
      destruct (Nat.ltb_spec p (length (b_lbs s))) as [_|Q]; [|rewrite Hl, map_length in Q; lia].
      inversion E; subst; clear E.
      assert (Hu' : forall j id', nth_error (b_vars s) j = Some id' -> (j =? p) = (id' =? id)).
      { intros j id' Hj. destruct (Nat.eqb_spec j p) as [->|N]; [rewrite Hp in Hj; inversion Hj; symmetry; apply Nat.eqb_refl|].
        destruct (Nat.eqb_spec id' id) as [->|]; [|reflexivity]. exfalso. apply N.
        pose proof (sorted_nodup _ (ho_sorted _ _ _ Hv)) as ND. rewrite NoDup_nth_error in ND. apply ND.
        - apply nth_error_Some. congruence.
        - congruence. }
      constructor; cbn [with_vars b_vreps b_vars b_lbs b_ubs b_creps b_cnts b_exprs b_ineq b_obj]; auto.
      + replace (map v_gone _) with (map v_gone vf); [exact Hv|].
        clear. revert id. induction vf as [|a f IH]; intros [|id]; cbn [set_nth map nth]; try reflexivity.
        f_equal. apply (IH id).
      + rewrite Hl. apply set_nth_map; [exact Hlt|]. intros j id' Hj. rewrite (Hu' j id' Hj), set_nth_nth.
        apply Nat.ltb_lt in Hs. rewrite Hs, andb_true_r. destruct (id' =? id); reflexivity.
      + rewrite Hu. apply set_nth_map; [exact Hlt|]. intros j id' Hj. rewrite (Hu' j id' Hj), set_nth_nth.
        apply Nat.ltb_lt in Hs. rewrite Hs, andb_true_r. destruct (id' =? id); reflexivity.
    - destruct H as [Hv Hl Hu Hc He Hi]. pose proof (ho_len _ _ _ Hc) as L. rewrite map_length in L.
      constructor; cbn [add_cnt with_cnts b_vreps b_vars b_lbs b_ubs b_creps b_cnts b_exprs b_ineq b_obj]; auto.
      + rewrite map_app. apply heap_add. exact Hc.
      + rewrite He, map_app. cbn [map]. f_equal.
        * apply map_ext_in. intros id Hid. apply (heap_in_range _ _ _ _ Hc) in Hid. rewrite map_length in Hid. rewrite app_nth1 by lia. reflexivity.
        * rewrite app_nth2, L, Nat.sub_diag by lia. reflexivity.
      + rewrite Hi, map_app. cbn [map]. f_equal.
        * apply map_ext_in. intros id Hid. apply (heap_in_range _ _ _ _ Hc) in Hid. rewrite map_length in Hid. rewrite app_nth1 by lia. reflexivity.
        * rewrite app_nth2, L, Nat.sub_diag by lia. reflexivity.
    - destruct H as [Hv Hl Hu Hc He Hi].
      constructor; cbn [remove_cnt with_cnts b_vreps b_vars b_lbs b_ubs b_creps b_cnts b_exprs b_ineq b_obj]; auto.
      + replace (map c_gone _) with (set_nth (map c_gone cf) id true).
        * apply heap_remove; [exact Hc|]. rewrite map_length. exact Hs.
        * clear. revert id. induction cf as [|a f IH]; intros [|id]; cbn [set_nth map nth]; try reflexivity.
          f_equal. rewrite (IH id). reflexivity.
      + rewrite He. apply map_ext. intros j. rewrite set_nth_nth. destruct (Nat.eqb_spec j id); cbn [andb]; [subst|reflexivity].
        destruct (id <? length cf); reflexivity.
      + rewrite Hi. apply map_ext. intros j. rewrite set_nth_nth. destruct (Nat.eqb_spec j id); cbn [andb]; [subst|reflexivity].
        destruct (id <? length cf); reflexivity.
    - destruct H as [Hv Hl Hu Hc He Hi]. constructor; cbn; auto.
    - destruct H as [Hv Hl Hu Hc He Hi]. constructor; cbn; auto.
    - apply sim_update. exact H.
  Qed.
  Lemma sim_call_ok s vf cf c :
    sim s vf cf ->
    match c with SetBounds id _ _ => id < length vf /\ v_gone (nth id vf no_v) = false | _ => True end ->
    exists s', bcall inf s c = Some s'.
  Proof.
    intros H Hs. destruct c as [|id|id l u|i e|id|e|q|]; cbn [bcall]; try (eexists; reflexivity).
    destruct Hs as [Hs Hg]. destruct H as [Hv Hl Hu Hc He Hi]. unfold set_bounds.
    assert (Hin : In id (b_vars s)).
    { apply (ho_live _ _ _ Hv); [rewrite map_length; exact Hs|]. rewrite nth_gone. exact Hg. }
    apply In_nth_error in Hin as (p & Hp). rewrite (ho_index _ _ _ Hv p id Hp).
    assert (Hlt : p < length (b_vars s)) by (apply nth_error_Some; congruence).
    destruct (Nat.ltb_spec p (length (b_lbs s))) as [_|Q]; [|rewrite Hl, map_length in Q; lia]. eexists. reflexivity.
  Qed.
  Lemma sim_calls cs : forall s vf cf, sim s vf cf -> sane inf vf cf cs ->
    exists s', bcalls inf s cs = Some s' /\ sim s' (fold_left (note_v inf) cs vf) (fold_left note_c cs cf).
  Proof.
    induction cs as [|c cs IH]; intros s vf cf H Hs; [exists s; split; [reflexivity|exact H]|].
    cbn [sane] in Hs. destruct Hs as [Hc Hs]. cbn [bcalls fold_left].
    destruct (sim_call_ok s vf cf c H) as (s' & E); [destruct c; auto|].
    rewrite E. apply IH; [|exact Hs]. apply (sim_call s vf cf c s' H); [|exact E]. destruct c; auto.
  Qed.
  Lemma sim_empty : sim empty_backend [] [].
  Proof.
    assert (H : heap_ok [] [] []).
    { constructor; cbn; auto; try lia; [intros [|id]; reflexivity|constructor|intros [|p] id E; discriminate]. }
    constructor; cbn; auto.
  Qed.
  Lemma sim_history cs : sane inf [] [] cs -> exists s, bcalls inf empty_backend cs = Some s /\ sim s (vfacts inf cs) (cfacts cs).
  Proof. intros H. apply sim_calls; [apply sim_empty|exact H]. Qed.

  (** after update(): positions and indices *)
  Lemma live_v_index s vf cf p id : sim s vf cf -> nth_error (live_v vf) p = Some id -> resolve_var (update s) id = p.
  Proof.
    intros H Hp. destruct (sim_update s vf cf H) as ([Hv _ _ _ _ _] & E & _). unfold resolve_var.
    apply (ho_index _ _ _ Hv). rewrite E. exact Hp.
  Qed.
End Sim.
