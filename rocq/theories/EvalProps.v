(** * C113, C114, C116: which states the collision evaluators check and which contacts they record *)
From Coq Require Import List ZArith Bool Arith Lia Reals Lra Sorted.
From Verif Require TrajoptModel.
From Verif Require Import Num NumFacts Common CollisionModel CollisionSpec CollisionAvgProofs CollisionProps EvalModel.
Import ListNotations.

(** ** C113: every contact test sees the links where the kinematics puts them *)
Section Poses.
  Context {T : Type} {NT : Num T} {P : Type}.
  Variable nsqrt : T -> T.
  Variable nceil : T -> Z.

  (** the kinematics knows every link that moves *)
  Definition knows (c : econf T P) (F : list T -> nat -> P) : Prop :=
    (forall q l, In l (e_active c) -> e_state c q l = Some (F q l) /\ e_fk c q l = Some (F q l)) /\
    (forall q l, In l (e_diff c) -> e_state c q l = Some (F q l)).
  (** links of the manipulator move from q to q', other moving links are where state a puts them, the rest stays *)
  Definition posed (c : econf T P) (F : list T -> nat -> P) (m : mgr P) (a q q' : list T) : mgr P :=
    fun l => if in_dec Nat.eq_dec l (e_active c) then (F q l, F q' l)
             else if in_dec Nat.eq_dec l (e_diff c) then (F a l, F a l) else m l.
  Fixpoint steps {A} (l : list A) : list (A * A) :=
    match l with x :: ((y :: _) as r) => (x, y) :: steps r | _ => [] end.
  (** the tests a call should make *)
  Definition due (older : bool) (kind : ekind) (c : econf T P) (F : list T -> nat -> P) (m : mgr P) (a b : list T) : list (mgr P) :=
    match kind with
    | KSingle => [posed c F m a a a]
    | KDiscrete => map (fun q => posed c F m a q q) (states_discrete nsqrt nceil (e_lvs c) a b)
    | KCast => map (fun p => posed c F m a (fst p) (snd p)) (steps (states_continuous nsqrt nceil (is_single older c) (e_lvs c) a b))
    end.
  Definition outcome_of (test : mgr P -> rmap T P) (older : bool) (kind : ekind) (c : econf T P) (F : list T -> nat -> P) (m : mgr P)
      (q : list T * list T * bool * bool) : rmap T P :=
    let '(a, b, v0, v1) := q in
    let ms := due older kind c F m a b in
    match kind with
    | KSingle => single_results test c ms
    | KDiscrete => discrete_results test c v0 v1 ms
    | KCast => cast_results nsqrt test older c a b v0 v1 ms
    end.

  Lemma set_links_ok ls (t : tmap P) G : (forall l, In l ls -> t l = Some (G l)) -> forall m, exists m', set_links ls t m = Ok m' /\
    forall l, m' l = if in_dec Nat.eq_dec l ls then (G l, G l) else m l.
  Proof.
    induction ls as [|x ls IH]; intros H m; cbn [set_links].
    - exists m. split; [reflexivity|]. intros l. destruct (in_dec _ _ _) as [[]|]; reflexivity.
    - rewrite (H x) by (left; reflexivity). destruct (IH (fun l Hl => H l (or_intror Hl)) (set1 x (G x, G x) m)) as (m' & E & M).
      exists m'. split; [exact E|]. intros l. rewrite M. unfold set1.
      destruct (in_dec Nat.eq_dec l ls), (in_dec Nat.eq_dec l (x :: ls)) as [I|N]; try reflexivity.
      + destruct N. right; assumption.
      + destruct (Nat.eqb_spec l x) as [->|D]; [reflexivity|]. destruct I; [congruence|contradiction].
      + destruct (Nat.eqb_spec l x) as [->|D]; [destruct N; left; reflexivity|reflexivity].
  Qed.
  Lemma set_links2_ok ls (t t' : tmap P) G G' : (forall l, In l ls -> t l = Some (G l) /\ t' l = Some (G' l)) -> forall m, exists m', set_links2 ls t t' m = Ok m' /\
    forall l, m' l = if in_dec Nat.eq_dec l ls then (G l, G' l) else m l.
  Proof.
    induction ls as [|x ls IH]; intros H m; cbn [set_links2].
    - exists m. split; [reflexivity|]. intros l. destruct (in_dec _ _ _) as [[]|]; reflexivity.
    - destruct (H x (or_introl eq_refl)) as [-> ->]. destruct (IH (fun l Hl => H l (or_intror Hl)) (set1 x (G x, G' x) m)) as (m' & E & M).
      exists m'. split; [exact E|]. intros l. rewrite M. unfold set1.
      destruct (in_dec Nat.eq_dec l ls), (in_dec Nat.eq_dec l (x :: ls)) as [I|N]; try reflexivity.
      + destruct N. right; assumption.
      + destruct (Nat.eqb_spec l x) as [->|D]; [reflexivity|]. destruct I; [congruence|contradiction].
      + destruct (Nat.eqb_spec l x) as [->|D]; [destruct N; left; reflexivity|reflexivity].
  Qed.
  Lemma copy_links_ok ls (t : tmap P) G : (forall l, In l ls -> t l = Some (G l)) -> forall u, exists u', copy_links ls t u = Ok u' /\
    forall l, u' l = if in_dec Nat.eq_dec l ls then Some (G l) else u l.
  Proof.
    induction ls as [|x ls IH]; intros H u; cbn [copy_links].
    - exists u. split; [reflexivity|]. intros l. destruct (in_dec _ _ _) as [[]|]; reflexivity.
    - rewrite (H x) by (left; reflexivity).
      destruct (IH (fun l Hl => H l (or_intror Hl)) (fun l' => if (l' =? x)%nat then Some (G x) else u l')) as (u' & E & M).
      exists u'. split; [exact E|]. intros l. rewrite M.
      destruct (in_dec Nat.eq_dec l ls), (in_dec Nat.eq_dec l (x :: ls)) as [I|N]; try reflexivity.
      + destruct N. right; assumption.
      + destruct (Nat.eqb_spec l x) as [->|D]; [reflexivity|]. destruct I; [congruence|contradiction].
      + destruct (Nat.eqb_spec l x) as [->|D]; [destruct N; left; reflexivity|reflexivity].
  Qed.

  (** what one evaluator may remember between calls *)
  Record sound (kind : ekind) (c : econf T P) (m : mgr P) (s : estate P) : Prop := {
    so_u0 : forall l, s_u0 s l <> None -> In l (e_active c) \/ (kind = KSingle /\ In l (e_diff c));
    so_u1 : forall l, s_u1 s l <> None -> In l (e_active c);
    so_ud : forall l, s_ud s l <> None -> In l (e_diff c);
    so_m : forall l, ~ In l (e_active c) -> ~ In l (e_diff c) -> s_m s l = m l
  }.
  Definition agree (m m' : mgr P) : Prop := forall l, m l = m' l.

  Section Conf.
    Variable c : econf T P.
    Variable F : list T -> nat -> P.
    Hypothesis K : knows c F.

    Lemma state_active q old l : In l (e_active c) -> get_state (e_state c) q old l = Some (F q l).
    Proof. intros I. unfold get_state. rewrite (proj1 (proj1 K q l I)). reflexivity. Qed.
    Lemma fk_active q old l : In l (e_active c) -> get_state (e_fk c) q old l = Some (F q l).
    Proof. intros I. unfold get_state. rewrite (proj2 (proj1 K q l I)). reflexivity. Qed.
    Lemma state_diff q old l : In l (e_diff c) -> get_state (e_state c) q old l = Some (F q l).
    Proof. intros I. unfold get_state. rewrite (proj2 K q l I). reflexivity. Qed.

    (** the links outside the manipulator are placed *)
    Definition based (m : mgr P) (a : list T) (s : estate P) : Prop :=
      forall l, ~ In l (e_active c) -> s_m s l = if in_dec Nat.eq_dec l (e_diff c) then (F a l, F a l) else m l.

    Lemma place_diff_ok older kind m a s : kind <> KSingle -> sound kind c m s -> exists s', place_diff older c a s = Ok s' /\ sound kind c m s' /\ based m a s'.
    Proof.
      intros NS S. unfold place_diff. destruct (e_diff c) as [|d ds] eqn:ED.
      - exists s. split; [reflexivity|]. split; [exact S|]. intros l N. rewrite ED. cbn. apply (so_m _ _ _ _ S); [exact N|rewrite ED; intros []].
      - rewrite <- ED. destruct older.
        + destruct (copy_links_ok (e_diff c) (get_state (e_state c) a (s_c0 s)) (F a) (fun l Hl => state_diff _ _ _ Hl) (s_ud s)) as (u & E & U).
          rewrite E. cbn [obind]. eexists. split; [reflexivity|]. destruct S as [S0 S1 S2 S3]. split.
          * split; cbn; auto.
            -- intros l Hl. rewrite U in Hl. destruct (in_dec _ _ _); auto.
            -- intros l A D. unfold set_map. rewrite U. destruct (in_dec Nat.eq_dec l (e_diff c)); [contradiction|].
               destruct (s_ud s l) eqn:Q; [|auto]. exfalso. apply D, S2. rewrite Q. discriminate.
          * intros l N. cbn. unfold set_map. rewrite U. destruct (in_dec Nat.eq_dec l (e_diff c)) as [I|D]; [reflexivity|].
            destruct (s_ud s l) eqn:Q; [|auto]. exfalso. apply D, S2. rewrite Q. discriminate.
        + destruct (set_links_ok (e_diff c) (get_state (e_state c) a (s_c0 s)) (F a) (fun l Hl => state_diff _ _ _ Hl) (s_m s)) as (m' & E & M).
          rewrite E. cbn [obind]. eexists. split; [reflexivity|]. destruct S as [S0 S1 S2 S3]. split.
          * split; cbn; auto. intros l A D. rewrite M. destruct (in_dec Nat.eq_dec l (e_diff c)); [contradiction|auto].
          * intros l N. cbn. rewrite M. destruct (in_dec Nat.eq_dec l (e_diff c)) as [I|D]; [reflexivity|]. auto.
    Qed.
    Lemma clear_ok older kind m s : sound kind c m s -> sound kind c m (clear_caches older s).
    Proof. intros [S0 S1 S2 S3]. destruct older; split; auto. Qed.

    Lemma place_at_ok older kind m a q s : kind <> KSingle -> sound kind c m s -> based m a s ->
      exists s', place_at older c q s = Ok s' /\ sound kind c m s' /\ based m a s' /\ agree (s_m s') (posed c F m a q q).
    Proof.
      intros NS S B. unfold place_at. destruct older.
      - destruct (copy_links_ok (e_active c) (get_state (e_state c) q (s_c0 s)) (F q) (fun l Hl => state_active _ _ _ Hl) (s_u0 s)) as (u & E & U).
        rewrite E. cbn [obind]. eexists. split; [reflexivity|]. destruct S as [S0 S1 S2 S3].
        assert (U' : forall l, ~ In l (e_active c) -> u l = None).
        { intros l N. rewrite U. destruct (in_dec _ _ _); [contradiction|]. destruct (s_u0 s l) eqn:Q; [|reflexivity].
          destruct (S0 l) as [?|[? _]]; [rewrite Q; discriminate|contradiction|congruence]. }
        split; [split; cbn; auto|split].
        + intros l Hl. left. destruct (in_dec Nat.eq_dec l (e_active c)); [assumption|]. rewrite U' in Hl by assumption. congruence.
        + intros l A D. unfold set_map. rewrite U' by assumption. auto.
        + intros l N. cbn. unfold set_map. rewrite U' by assumption. auto.
        + intros l. cbn. unfold set_map, posed. destruct (in_dec Nat.eq_dec l (e_active c)) as [I|N].
          * rewrite U. destruct (in_dec _ _ _); [reflexivity|contradiction].
          * rewrite U' by assumption. auto.
      - destruct (set_links_ok (e_active c) (get_state (e_state c) q (s_c0 s)) (F q) (fun l Hl => state_active _ _ _ Hl) (s_m s)) as (m' & E & M).
        rewrite E. cbn [obind]. eexists. split; [reflexivity|]. destruct S as [S0 S1 S2 S3].
        split; [split; cbn; auto|split].
        + intros l A D. rewrite M. destruct (in_dec _ _ _); [contradiction|auto].
        + intros l N. cbn. rewrite M. destruct (in_dec Nat.eq_dec l (e_active c)); [contradiction|auto].
        + intros l. cbn. rewrite M. unfold posed. destruct (in_dec Nat.eq_dec l (e_active c)) as [I|N]; [reflexivity|auto].
    Qed.

    Lemma place_cast_ok older kind m a q q' s : kind <> KSingle -> sound kind c m s -> based m a s ->
      exists s', place_cast older c q q' s = Ok s' /\ sound kind c m s' /\ based m a s' /\ agree (s_m s') (posed c F m a q q').
    Proof.
      intros NS S B. unfold place_cast. destruct older.
      - destruct (copy_links_ok (e_active c) (get_state (e_fk c) q (s_c0 s)) (F q) (fun l Hl => fk_active _ _ _ Hl) (s_u0 s)) as (u & E & U).
        destruct (copy_links_ok (e_active c) (get_state (e_fk c) q' (s_c1 s)) (F q') (fun l Hl => fk_active _ _ _ Hl) (s_u1 s)) as (v & E' & V).
        rewrite E, E'. cbn [obind]. eexists. split; [reflexivity|]. destruct S as [S0 S1 S2 S3].
        assert (U' : forall l, ~ In l (e_active c) -> u l = None).
        { intros l N. rewrite U. destruct (in_dec _ _ _); [contradiction|]. destruct (s_u0 s l) eqn:Q; [|reflexivity].
          destruct (S0 l) as [?|[? _]]; [rewrite Q; discriminate|contradiction|congruence]. }
        split; [split; cbn; auto|split].
        + intros l Hl. left. destruct (in_dec Nat.eq_dec l (e_active c)); [assumption|]. rewrite U' in Hl by assumption. congruence.
        + intros l Hl. destruct (in_dec Nat.eq_dec l (e_active c)); [assumption|]. rewrite V in Hl.
          destruct (in_dec Nat.eq_dec l (e_active c)); [assumption|auto].
        + intros l A D. unfold set_map2. rewrite U' by assumption. auto.
        + intros l N. cbn. unfold set_map2. rewrite U' by assumption. auto.
        + intros l. cbn. unfold set_map2, posed. destruct (in_dec Nat.eq_dec l (e_active c)) as [I|N].
          * rewrite U, V. destruct (in_dec _ _ _); [reflexivity|contradiction].
          * rewrite U' by assumption. auto.
      - destruct (set_links2_ok (e_active c) (get_state (e_state c) q (s_c0 s)) (get_state (e_state c) q' (s_c1 s)) (F q) (F q')
          (fun l Hl => conj (state_active _ _ _ Hl) (state_active _ _ _ Hl)) (s_m s)) as (m' & E & M).
        rewrite E. cbn [obind]. eexists. split; [reflexivity|]. destruct S as [S0 S1 S2 S3].
        split; [split; cbn; auto|split].
        + intros l A D. rewrite M. destruct (in_dec _ _ _); [contradiction|auto].
        + intros l N. cbn. rewrite M. destruct (in_dec Nat.eq_dec l (e_active c)); [contradiction|auto].
        + intros l. cbn. rewrite M. unfold posed. destruct (in_dec Nat.eq_dec l (e_active c)) as [I|N]; [reflexivity|auto].
    Qed.

    Lemma at_all_ok older kind m a rows : kind <> KSingle -> forall s, sound kind c m s -> based m a s ->
      exists s' ms, at_all older c rows s = Ok (s', ms) /\ sound kind c m s' /\ Forall2 agree ms (map (fun q => posed c F m a q q) rows).
    Proof.
      intros NS. induction rows as [|q rows IH]; intros s S B; cbn [at_all].
      - exists s, []. split; [reflexivity|]. split; [exact S|constructor].
      - destruct (place_at_ok older kind m a q s NS S B) as (s1 & E & S' & B' & A). rewrite E. cbn [obind].
        destruct (IH s1 S' B') as (s2 & ms & E2 & S2 & A2). rewrite E2. cbn [obind].
        exists s2, (s_m s1 :: ms). split; [reflexivity|]. split; [exact S2|]. cbn [map]. constructor; assumption.
    Qed.
    Lemma cast_all_ok older kind m a rows : kind <> KSingle -> forall s, sound kind c m s -> based m a s ->
      exists s' ms, cast_all older c rows s = Ok (s', ms) /\ sound kind c m s' /\ Forall2 agree ms (map (fun p => posed c F m a (fst p) (snd p)) (steps rows)).
    Proof.
      intros NS. induction rows as [|q rows IH]; intros s S B; cbn [cast_all steps].
      - exists s, []. split; [reflexivity|]. split; [exact S|constructor].
      - destruct rows as [|q' rows]; [exists s, []; split; [reflexivity|]; split; [exact S|constructor]|].
        destruct (place_cast_ok older kind m a q q' s NS S B) as (s1 & E & S' & B' & A). rewrite E. cbn [obind].
        destruct (IH s1 S' B') as (s2 & ms & E2 & S2 & A2). rewrite E2. cbn [obind].
        exists s2, (s_m s1 :: ms). split; [reflexivity|]. split; [exact S2|]. cbn [map]. constructor; assumption.
    Qed.

    Lemma single_ok older m a s : (forall l, In l (e_diff c) -> ~ In l (e_active c)) -> sound KSingle c m s ->
      exists s' x, single_tests older c a s = Ok (s', [x]) /\ sound KSingle c m s' /\ agree x (posed c F m a a a).
    Proof.
      intros DJ [S0 S1 S2 S3]. unfold single_tests. destruct older.
      - destruct (copy_links_ok (e_diff c) (get_state (e_state c) a (s_c0 s)) (F a) (fun l Hl => state_diff _ _ _ Hl) (s_u0 s)) as (u & E & U).
        rewrite E. cbn [obind].
        destruct (copy_links_ok (e_active c) (get_state (e_state c) a (s_c0 s)) (F a) (fun l Hl => state_active _ _ _ Hl) u) as (v & E' & V).
        rewrite E'. cbn [obind]. do 2 eexists. split; [reflexivity|].
        assert (V' : forall l, v l = if in_dec Nat.eq_dec l (e_active c) then Some (F a l) else if in_dec Nat.eq_dec l (e_diff c) then Some (F a l) else None).
        { intros l. rewrite V. destruct (in_dec Nat.eq_dec l (e_active c)); [reflexivity|]. rewrite U. destruct (in_dec Nat.eq_dec l (e_diff c)); [reflexivity|].
          destruct (s_u0 s l) eqn:Q; [|reflexivity]. destruct (S0 l) as [?|[_ ?]]; [rewrite Q; discriminate|contradiction|contradiction]. }
        split; [split; cbn; auto|].
        + intros l Hl. rewrite V' in Hl. destruct (in_dec Nat.eq_dec l (e_active c)); [auto|]. destruct (in_dec Nat.eq_dec l (e_diff c)); [auto|congruence].
        + intros l A D. unfold set_map. rewrite V'. destruct (in_dec Nat.eq_dec l (e_active c)); [contradiction|]. destruct (in_dec Nat.eq_dec l (e_diff c)); [contradiction|auto].
        + intros l. unfold set_map, posed. rewrite V'. destruct (in_dec Nat.eq_dec l (e_active c)); [reflexivity|]. destruct (in_dec Nat.eq_dec l (e_diff c)); [reflexivity|auto].
      - destruct (set_links_ok (e_diff c) (get_state (e_state c) a no_poses) (F a) (fun l Hl => state_diff _ _ _ Hl) (s_m s)) as (m1 & E & M).
        rewrite E. cbn [obind].
        destruct (set_links_ok (e_active c) (get_state (e_state c) a no_poses) (F a) (fun l Hl => state_active _ _ _ Hl) m1) as (m2 & E' & M').
        rewrite E'. cbn [obind]. do 2 eexists. split; [reflexivity|]. split; [split; cbn; auto|].
        + intros l A D. rewrite M', M. destruct (in_dec Nat.eq_dec l (e_active c)); [contradiction|]. destruct (in_dec Nat.eq_dec l (e_diff c)); [contradiction|auto].
        + intros l. rewrite M', M. unfold posed. destruct (in_dec Nat.eq_dec l (e_active c)); [reflexivity|]. destruct (in_dec Nat.eq_dec l (e_diff c)); [reflexivity|auto].
    Qed.
  End Conf.

  Lemma agree_map (test : mgr P -> rmap T P) ms ms' : (forall m m', agree m m' -> test m = test m') -> Forall2 agree ms ms' -> map test ms = map test ms'.
  Proof. intros X H. induction H; cbn; [reflexivity|]. f_equal; auto. Qed.
  Lemma agree_length ms ms' : Forall2 agree ms ms' -> length ms = length ms'.
  Proof. intros H. induction H; cbn; congruence. Qed.

  Lemma call_ok test older kind c F m q s : (forall m m', agree m m' -> test m = test m') -> knows c F ->
    (forall l, In l (e_diff c) -> ~ In l (e_active c)) -> sound kind c m s ->
    exists s', call nsqrt nceil test older kind c q s = Ok (s', outcome_of test older kind c F m q) /\ sound kind c m s'.
  Proof.
    intros X K DJ S. destruct q as [[[a b] v0] v1]. unfold call, outcome_of, due. destruct kind.
    - destruct (single_ok c F K older m a s DJ S) as (s' & x & E & S' & A). rewrite E. cbn [obind]. exists s'. split; [|exact S'].
      unfold single_results. rewrite (X _ _ A). reflexivity.
    - unfold discrete_tests. destruct (place_diff_ok c F K older KDiscrete m a (clear_caches older s)) as (s1 & E & S1 & B); [discriminate|apply clear_ok, S|].
      rewrite E. cbn [obind]. destruct (at_all_ok c F K older KDiscrete m a (states_discrete nsqrt nceil (e_lvs c) a b) ltac:(discriminate) s1 S1 B) as (s2 & ms & E2 & S2 & A).
      rewrite E2. cbn [obind]. exists s2. split; [|exact S2]. unfold discrete_results. rewrite (agree_map _ _ _ X A), (agree_length _ _ A). reflexivity.
    - unfold cast_tests. destruct (place_diff_ok c F K older KCast m a (clear_caches older s)) as (s1 & E & S1 & B); [discriminate|apply clear_ok, S|].
      rewrite E. cbn [obind].
      destruct (cast_all_ok c F K older KCast m a (states_continuous nsqrt nceil (is_single older c) (e_lvs c) a b) ltac:(discriminate) s1 S1 B) as (s2 & ms & E2 & S2 & A).
      rewrite E2. cbn [obind]. exists s2. split; [|exact S2]. unfold cast_results. rewrite (agree_map _ _ _ X A), (agree_length _ _ A).
      destruct (subdivided _ _ _ _ _); [reflexivity|]. destruct A as [|x y ms ms' A _]; [reflexivity|]. rewrite (X _ _ A). reflexivity.
  Qed.
End Poses.

(** Any sequence of calls of a new evaluator of either library: each call tests the manipulator at the states of its own
    arguments and returns what those tests give, whatever was asked before. *)
Theorem C113_calls : forall (T : Type) (NT : Num T) (P : Type) (nsqrt : T -> T) (nceil : T -> Z) test older kind (c : econf T P) F m qs,
  (forall m m', (forall l, m l = m' l) -> test m = test m') ->
  knows c F -> (forall l, In l (e_diff c) -> ~ In l (e_active c)) ->
  calls nsqrt nceil test older kind c qs (fresh m) = Ok (map (outcome_of nsqrt nceil test older kind c F m) qs).
Proof.
  intros T NT P nsqrt nceil test older kind c F m qs X K DJ.
  assert (G : forall s, sound kind c m s -> calls nsqrt nceil test older kind c qs s = Ok (map (outcome_of nsqrt nceil test older kind c F m) qs)).
  { induction qs as [|q qs IH]; intros s S; cbn [calls map]; [reflexivity|].
    destruct (call_ok nsqrt nceil test older kind c F m q s X K DJ S) as (s' & E & S'). rewrite E. cbn [obind]. rewrite (IH s' S'). reflexivity. }
  apply G. split; cbn; unfold no_poses; try (intros l X'; exfalso; apply X'; reflexivity); auto.
Qed.
Print Assumptions C113_calls.

(** The moving links outside the manipulator are those the constructors compute. *)
Theorem C113_diff : forall env manip l, In l (diff_links env manip) <-> In l env /\ ~ In l manip.
Proof.
  intros env manip l. unfold diff_links. rewrite filter_In, negb_true_iff. split; intros [H1 H2]; (split; [exact H1|]).
  - intros I. assert (E : existsb (Nat.eqb l) manip = true) by (apply existsb_exists; exists l; split; [exact I|apply Nat.eqb_refl]). congruence.
  - destruct (existsb (Nat.eqb l) manip) eqn:E; [|reflexivity]. apply existsb_exists in E as (x & I & E). apply Nat.eqb_eq in E. subst. contradiction.
Qed.
Print Assumptions C113_diff.

(** A call returns what it would return as the first call of a new evaluator. *)
Theorem C113_history : forall (T : Type) (NT : Num T) (P : Type) (nsqrt : T -> T) (nceil : T -> Z) test older kind (c : econf T P) F m pre q,
  (forall m m', (forall l, m l = m' l) -> test m = test m') ->
  knows c F -> (forall l, In l (e_diff c) -> ~ In l (e_active c)) ->
  exists r rs, calls nsqrt nceil test older kind c [q] (fresh m) = Ok [r] /\ calls nsqrt nceil test older kind c (pre ++ [q]) (fresh m) = Ok (rs ++ [r]).
Proof.
  intros T NT P nsqrt nceil test older kind c F m pre q X K DJ. exists (outcome_of nsqrt nceil test older kind c F m q), (map (outcome_of nsqrt nceil test older kind c F m) pre).
  rewrite !(C113_calls T NT P nsqrt nceil test older kind c F m) by assumption. rewrite map_app. auto.
Qed.
Print Assumptions C113_history.

(** The two libraries return the same contacts unless the check type is CONTINUOUS. *)
Theorem C113_libraries : forall (T : Type) (NT : Num T) (P : Type) (nsqrt : T -> T) (nceil : T -> Z) test kind (c : econf T P) F m qs,
  (forall m m', (forall l, m l = m' l) -> test m = test m') ->
  knows c F -> (forall l, In l (e_diff c) -> ~ In l (e_active c)) -> e_single c = false \/ kind <> KCast ->
  calls nsqrt nceil test true kind c qs (fresh m) = calls nsqrt nceil test false kind c qs (fresh m).
Proof.
  intros T NT P nsqrt nceil test kind c F m qs X K DJ H. rewrite !(C113_calls T NT P nsqrt nceil test _ kind c F m) by assumption. f_equal. apply map_ext.
  intros [[[a b] v0] v1]. unfold outcome_of, due, cast_results, subdivided, is_single. destruct kind; try reflexivity. destruct H as [-> |H]; [reflexivity|congruence].
Qed.
Print Assumptions C113_libraries.

(** The newer evaluators remember no poses themselves: what a call records depends on the call and on the poses the contact manager
    already has, even when the kinematics does not know every link. *)
Section Stateless.
  Context {T : Type} {NT : Num T} {P : Type}.
  Definition like (s s' : estate P) : Prop := s_c0 s = s_c0 s' /\ s_c1 s = s_c1 s' /\ s_m s = s_m s'.
  Definition same_out {A} (x y : outcome (estate P * A)) : Prop :=
    match x, y with Ok (s, a), Ok (s', a') => s_m s = s_m s' /\ a = a' | NoFuel, NoFuel => True | Undef, Undef => True | _, _ => False end.
  Definition like_out (x y : outcome (estate P)) : Prop :=
    match x, y with Ok s, Ok s' => like s s' | NoFuel, NoFuel => True | Undef, Undef => True | _, _ => False end.
  Lemma place_diff_like (c : econf T P) a s s' : like s s' -> like_out (place_diff false c a s) (place_diff false c a s').
  Proof.
    intros (A & B & C). unfold place_diff. destruct (e_diff c); [split; auto|]. rewrite A, C. destruct (set_links _ _ _); cbn; try exact I. split; auto.
  Qed.
  Lemma place_at_like (c : econf T P) q s s' : like s s' -> like_out (place_at false c q s) (place_at false c q s').
  Proof. intros (A & B & C). unfold place_at. rewrite A, C. destruct (set_links _ _ _); cbn; try exact I. split; auto. Qed.
  Lemma place_cast_like (c : econf T P) q q' s s' : like s s' -> like_out (place_cast false c q q' s) (place_cast false c q q' s').
  Proof. intros (A & B & C). unfold place_cast. rewrite A, B, C. destruct (set_links2 _ _ _ _); cbn; try exact I. split; auto. Qed.
  Lemma at_all_like (c : econf T P) rows : forall s s', like s s' -> same_out (at_all false c rows s) (at_all false c rows s').
  Proof.
    induction rows as [|q rows IH]; intros s s' L; cbn [at_all]; [split; [apply L|reflexivity]|].
    pose proof (place_at_like c q s s' L) as Pl. destruct (place_at false c q s), (place_at false c q s'); cbn [like_out obind] in *; try contradiction; try exact I.
    specialize (IH _ _ Pl). destruct (at_all _ _ _ _) as [[? ?]| |], (at_all _ _ _ _) as [[? ?]| |]; cbn in *; try contradiction; try exact I.
    destruct IH as [-> ->]. split; [reflexivity|]. f_equal. apply Pl.
  Qed.
  Lemma cast_all_like (c : econf T P) rows : forall s s', like s s' -> same_out (cast_all false c rows s) (cast_all false c rows s').
  Proof.
    induction rows as [|q rows IH]; intros s s' L; cbn [cast_all]; [split; [apply L|reflexivity]|].
    destruct rows as [|q' rows]; [split; [apply L|reflexivity]|].
    pose proof (place_cast_like c q q' s s' L) as Pl. destruct (place_cast false c q q' s), (place_cast false c q q' s'); cbn [like_out obind] in *; try contradiction; try exact I.
    specialize (IH _ _ Pl). destruct (cast_all _ _ _ _) as [[? ?]| |], (cast_all _ _ _ _) as [[? ?]| |]; cbn in *; try contradiction; try exact I.
    destruct IH as [-> ->]. split; [reflexivity|]. f_equal. apply Pl.
  Qed.
End Stateless.
Theorem C113_stateless : forall (T : Type) (NT : Num T) (P : Type) (nsqrt : T -> T) (nceil : T -> Z) test kind (c : econf T P) qs s,
  calls nsqrt nceil test false kind c qs s = calls nsqrt nceil test false kind c qs (fresh (s_m s)).
Proof.
  intros T NT P nsqrt nceil test kind c.
  assert (one : forall q s s', s_m s = s_m s' -> same_out (call nsqrt nceil test false kind c q s) (call nsqrt nceil test false kind c q s')).
  { intros [[[a b] v0] v1] s s' M. unfold call.
    assert (L : like (clear_caches false s) (clear_caches false s')) by (split; [|split]; [reflexivity|reflexivity|exact M]).
    pose proof (place_diff_like c a _ _ L) as Pl.
    destruct kind.
    - unfold single_tests. rewrite M. destruct (set_links (e_diff c) _ _) as [m| |]; cbn [obind same_out]; try exact I.
      destruct (set_links (e_active c) _ _) as [m'| |]; cbn [obind same_out]; try exact I. split; reflexivity.
    - unfold discrete_tests. destruct (place_diff false c a (clear_caches false s)), (place_diff false c a (clear_caches false s')); cbn [like_out obind same_out] in *; try contradiction; try exact I.
      pose proof (at_all_like c (states_discrete nsqrt nceil (e_lvs c) a b) _ _ Pl) as G.
      destruct (at_all _ _ _ _) as [[? ?]| |], (at_all _ _ _ _) as [[? ?]| |]; cbn [same_out obind] in *; try contradiction; try exact I. destruct G as [-> ->]. split; reflexivity.
    - unfold cast_tests. destruct (place_diff false c a (clear_caches false s)), (place_diff false c a (clear_caches false s')); cbn [like_out obind same_out] in *; try contradiction; try exact I.
      pose proof (cast_all_like c (states_continuous nsqrt nceil (is_single false c) (e_lvs c) a b) _ _ Pl) as G.
      destruct (cast_all _ _ _ _) as [[? ?]| |], (cast_all _ _ _ _) as [[? ?]| |]; cbn [same_out obind] in *; try contradiction; try exact I. destruct G as [-> ->]. split; reflexivity. }
  assert (G : forall qs s s', s_m s = s_m s' -> calls nsqrt nceil test false kind c qs s = calls nsqrt nceil test false kind c qs s').
  { induction qs as [|q qs IH]; intros s s' M; cbn [calls]; [reflexivity|]. specialize (one q _ _ M).
    destruct (call _ _ _ _ _ _ _ s) as [[? ?]| |], (call _ _ _ _ _ _ _ s') as [[? ?]| |]; cbn [same_out obind] in *; try contradiction; try reflexivity.
    destruct one as [M' ->]. rewrite (IH _ _ M'). reflexivity. }
  intros qs s. apply G. reflexivity.
Qed.
Print Assumptions C113_stateless.
(** The older discrete evaluator does remember: after a call that knew a link, it still checks the link at its old place when the kinematics
    has stopped knowing it, where a new evaluator has undefined behaviour. *)
Theorem C113_stateless_old_refuted : exists (c : econf QArith_base.Q nat) q q', forall test,
  (exists rs, calls (fun x => x) (fun _ => 1%Z) test true KDiscrete c [q; q'] (fresh (fun _ => (0, 0)%nat)) = Ok rs) /\
  calls (fun x => x) (fun _ => 1%Z) test true KDiscrete c [q'] (fresh (fun _ => (0, 0)%nat)) = Undef.
Proof.
  exists {| e_active := [1%nat]; e_diff := []; e_state := fun q l => match q with [] => None | _ => Some 5%nat end;
            e_fk := fun _ _ => None; e_coeffs := coeff_new none_; e_margin := fun _ => nzero; e_buffer := nzero; e_lvs := none_; e_single := false |}.
  exists ([none_], [none_], false, false), ([], [], false, false). intros test. split; [eexists|]; reflexivity.
Qed.
Print Assumptions C113_stateless_old_refuted.

(** Examples: a planar arm of one joint (link 1 moves with it), a cart (link 7) moved from outside, link 0 fixed; the test
    reports one contact of links 1 and 7 whose distance is the difference of their poses. *)
Section ArmExample.
  Local Open Scope Z_scope.
  Context {T : Type} {NT : Num T}.
  Definition arm_fk (q : list T) (l : nat) : option (list T) := if (l =? 1)%nat then Some q else if (l =? 7)%nat then Some [nofZ 50] else None.
  Definition arm_conf (single : bool) : econf T (list T) :=
    {| e_active := [1%nat]; e_diff := [7%nat]; e_state := arm_fk; e_fk := arm_fk; e_coeffs := coeff_new none_;
       e_margin := fun _ => nofZ 100; e_buffer := nzero; e_lvs := nofZ 2; e_single := single |}.
  Definition hit_at (d : T) (cc : cctype * cctype) (time : T * T) (p : list T * list T) : hit T (list T) :=
    {| h_contact := {| ct_dist := d; ct_shape := (0, 0); ct_sub := (0, 0); ct_cc := cc; ct_id := 0 |}; h_links := (1, 7)%nat; h_time := time;
       h_tf := p; h_cctf := p; h_local := ((nzero, nzero, nzero), (nzero, nzero, nzero)); h_normal := (none_, nzero, nzero) |}.
  Definition arm_test (m : mgr (list T)) : rmap T (list T) :=
    [((1, 7)%nat, [hit_at (nsub (nth 0 (fst (m 7%nat)) nzero) (nth 0 (fst (m 1%nat)) nzero)) (CCNone, CCNone) (nofZ (-1), nofZ (-1)) (snd (m 1%nat), fst (m 7%nat))])].
  Definition still : mgr (list T) := fun _ => ([], []).
  Definition dists (m : rmap T (list T)) : list T := flat_map (fun p => map (fun h => ct_dist (h_contact h)) (snd p)) m.
End ArmExample.
Local Open Scope R_scope.

Lemma arm_knows {T} {NT : Num T} single : knows (arm_conf single) (fun (q : list T) l => if (l =? 1)%nat then q else [nofZ 50]).
Proof. split; intros q l [<-|[]]; try split; reflexivity. Qed.

Example C113_calls_ex : (* two calls of one evaluator over binary rationals: the motions 0 -> 4 and 10 -> 11 *)
  let run older := calls (T := QArith_base.Q) (fun x => x) Qround.Qceiling arm_test older KDiscrete (arm_conf false)
    [([nofZ 0], [nofZ 2], false, false); ([nofZ 10], [nofZ 11], false, false)] (fresh still) in
  match run true, run false with
  | Ok [r1; r2], Ok [r1'; r2'] =>
      map QArith_base.Qnum (dists r1) = [50; 49; 48]%Z /\ map QArith_base.Qnum (dists r2) = [40; 39]%Z /\ dists r1 = dists r1' /\ dists r2 = dists r2'
  | _, _ => False
  end.
Proof. vm_compute. auto. Qed.

(** ** C114: which contacts are recorded, and when *)
Section Recorded.
  Context {T : Type} {NT : Num T} {P : Type}.

  Definition ksorted (m : rmap T P) : Prop := StronglySorted (fun p q => pairltb (fst p) (fst q) = true) m.
  Lemma paireqb_spec p q : paireqb p q = true <-> p = q.
  Proof.
    unfold paireqb. destruct p as [a b], q as [x y]. cbn. rewrite andb_true_iff, !Nat.eqb_eq. split; [intros [-> ->]; reflexivity|intros [= -> ->]; auto].
  Qed.
  Lemma paireqb_refl p : paireqb p p = true. Proof. apply paireqb_spec. reflexivity. Qed.
  Lemma pairltb_irrefl p : pairltb p p = false.
  Proof. unfold pairltb. rewrite !Nat.ltb_irrefl, andb_false_r. reflexivity. Qed.
  Lemma pairltb_trans p q r : pairltb p q = true -> pairltb q r = true -> pairltb p r = true.
  Proof.
    unfold pairltb. destruct p as [a b], q as [x y], r as [u v]. cbn [fst snd]. rewrite !orb_true_iff, !andb_true_iff, !Nat.ltb_lt, !Nat.eqb_eq. lia.
  Qed.
  Lemma pairltb_total p q : p <> q -> pairltb p q = false -> pairltb q p = true.
  Proof.
    unfold pairltb. destruct p as [a b], q as [x y]. cbn [fst snd]. rewrite !orb_true_iff, !orb_false_iff, !andb_true_iff, !andb_false_iff, !Nat.ltb_lt, !Nat.ltb_ge, !Nat.eqb_eq, !Nat.eqb_neq.
    intros N H. assert (a <> x \/ b <> y) by (destruct (Nat.eq_dec a x), (Nat.eq_dec b y); auto; subst; congruence). lia.
  Qed.
  Lemma rm_get_none (m : rmap T P) k : Forall (fun q => pairltb k (fst q) = true) m -> rm_get k m = [].
  Proof.
    induction 1 as [|[k' hs] m H _ IH]; cbn; [reflexivity|]. destruct (paireqb k k') eqn:E; [|exact IH].
    apply paireqb_spec in E. subst. cbn in H. rewrite pairltb_irrefl in H. discriminate.
  Qed.
  Lemma rm_add_forall (m : rmap T P) k hs k0 : pairltb k0 k = true -> Forall (fun q => pairltb k0 (fst q) = true) m -> Forall (fun q => pairltb k0 (fst q) = true) (rm_add k hs m).
  Proof.
    intros K H. induction H as [|[k' hs'] m Hx H IH]; cbn [rm_add].
    - constructor; auto.
    - destruct (paireqb k k'); [constructor; auto|]. destruct (pairltb k k'); constructor; auto.
  Qed.
  Lemma rm_add_sorted (m : rmap T P) k hs : ksorted m -> ksorted (rm_add k hs m).
  Proof.
    induction 1 as [|[k' hs'] m S IH F]; cbn [rm_add].
    - constructor; constructor.
    - destruct (paireqb k k') eqn:E; [constructor; auto|]. destruct (pairltb k k') eqn:L.
      + constructor; [constructor; auto|]. constructor; [exact L|]. eapply Forall_impl; [|exact F]. intros q Q. eapply pairltb_trans; [exact L|exact Q].
      + constructor; [exact IH|]. apply rm_add_forall; [|exact F]. cbn. apply pairltb_total; [|exact L]. intros <-. rewrite paireqb_refl in E. discriminate.
  Qed.
  Lemma rm_get_add (m : rmap T P) k hs k0 : ksorted m -> rm_get k0 (rm_add k hs m) = if paireqb k0 k then rm_get k0 m ++ hs else rm_get k0 m.
  Proof.
    induction 1 as [|[k' hs'] m S IH F]; cbn [rm_add rm_get].
    - destruct (paireqb k0 k); reflexivity.
    - destruct (paireqb k k') eqn:E.
      + apply paireqb_spec in E. subst k'. cbn [rm_get]. destruct (paireqb k0 k); reflexivity.
      + destruct (pairltb k k') eqn:L; cbn [rm_get].
        * destruct (paireqb k0 k) eqn:E0; [|reflexivity]. apply paireqb_spec in E0. subst k0. rewrite E.
          rewrite (rm_get_none m k); [reflexivity|]. eapply Forall_impl; [|exact F]. intros q Q. eapply pairltb_trans; [exact L|exact Q].
        * destruct (paireqb k0 k') eqn:E'; [|exact IH]. destruct (paireqb k0 k) eqn:E0; [|reflexivity].
          apply paireqb_spec in E0, E'. subst. rewrite paireqb_refl in E. discriminate.
  Qed.

  (** the contacts of one test that go into the results *)
  Definition taken (c : econf T P) (i last : nat) (discrete v0 v1 : bool) (k : nat * nat) (hs : list (hit T P)) : list (hit T P) :=
    hit_filter c v0 v1 (k, map (stamp (e_active c) i last (ndiv none_ (nofZ (Z.of_nat last))) discrete) hs).
  Lemma taken_nil c i last discrete v0 v1 k : taken c i last discrete v0 v1 k [] = [].
  Proof. unfold taken, hit_filter. cbn. destruct (existsb _ _); reflexivity. Qed.

  Lemma add_interpolated_ok c i last discrete v0 v1 k sub : NoDup (map fst sub) -> forall acc, ksorted acc ->
    ksorted (add_interpolated c i last discrete v0 v1 sub acc) /\
    rm_get k (add_interpolated c i last discrete v0 v1 sub acc) = rm_get k acc ++ taken c i last discrete v0 v1 k (rm_get k sub).
  Proof.
    unfold add_interpolated. induction sub as [|[k' hs] sub IH]; intros N acc S; cbn [fold_left].
    - split; [exact S|]. rewrite taken_nil, app_nil_r. reflexivity.
    - inversion N as [|? ? N1 N2]; subst. cbn [fst snd]. fold (taken c i last discrete v0 v1 k' hs).
      set (acc' := match taken c i last discrete v0 v1 k' hs with [] => acc | h :: l => rm_add k' (h :: l) acc end).
      assert (S' : ksorted acc') by (unfold acc'; destruct (taken c i last discrete v0 v1 k' hs); [exact S|apply rm_add_sorted, S]).
      destruct (IH N2 acc' S') as [A B]. split; [exact A|]. etransitivity; [exact B|]. clear A B.
      assert (G : rm_get k acc' = if paireqb k k' then rm_get k acc ++ taken c i last discrete v0 v1 k' hs else rm_get k acc).
      { unfold acc'. destruct (taken c i last discrete v0 v1 k' hs) eqn:E; [rewrite app_nil_r; destruct (paireqb k k'); reflexivity|apply rm_get_add, S]. }
      rewrite G. cbn [rm_get]. destruct (paireqb k k') eqn:E; [|reflexivity]. apply paireqb_spec in E. subst k'.
      assert (Z : rm_get k sub = []).
      { clear - N1. induction sub as [|[k' hs] sub IH]; cbn [rm_get]; [reflexivity|]. destruct (paireqb k k') eqn:E.
        - apply paireqb_spec in E. subst. destruct N1. left. reflexivity.
        - apply IH. intros I. apply N1. right. exact I. }
      rewrite Z, taken_nil, app_nil_r. reflexivity.
  Qed.
  Lemma collect_ok c last discrete v0 v1 k tests : Forall (fun t => NoDup (map fst t)) tests -> forall i acc, ksorted acc ->
    rm_get k (collect c i last discrete v0 v1 tests acc) =
    rm_get k acc ++ flat_map (fun p => taken c (fst p) last discrete v0 v1 k (rm_get k (snd p))) (combine (seq i (length tests)) tests).
  Proof.
    induction 1 as [|t tests N _ IH]; intros i acc S; cbn [collect length seq combine flat_map].
    - rewrite app_nil_r. reflexivity.
    - destruct (add_interpolated_ok c i last discrete v0 v1 k t N acc S) as [A B].
      rewrite (IH (Datatypes.S i) _ A), B, <- app_assoc. reflexivity.
  Qed.
End Recorded.

Section Moments.
  Context {P : Type}.
  Definition moves (c : econf R P) (l : nat) : bool := existsb (Nat.eqb l) (e_active c).
  (** the contact [h] of the [i]-th test of a motion with last index [n], as it should be recorded: moving links get the
      time within the whole motion *)
  Definition moment (c : econf R P) (n i : nat) (kind : cctype -> cctype) (pose : bool) (h : hit R P) : hit R P :=
    let at1 := moves c (fst (h_links h)) in
    let at2 := moves c (snd (h_links h)) in
    let time t := (INR i + Rmax 0 t) / INR n in
    let cc := ct_cc (h_contact h) in
    {| h_contact := {| ct_dist := ct_dist (h_contact h); ct_shape := ct_shape (h_contact h); ct_sub := ct_sub (h_contact h);
                       ct_cc := (if at1 then kind (fst cc) else fst cc, if at2 then kind (snd cc) else snd cc); ct_id := ct_id (h_contact h) |};
       h_links := h_links h;
       h_time := (if at1 then time (fst (h_time h)) else fst (h_time h), if at2 then time (snd (h_time h)) else snd (h_time h));
       h_tf := h_tf h; h_cctf := if pose then h_tf h else h_cctf h; h_local := h_local h; h_normal := h_normal h |}.
  Definition kind_discrete (n i : nat) (_ : cctype) : cctype := if (i =? 0)%nat then CCTime0 else if (i =? n)%nat then CCTime1 else CCBetween.
  Definition kind_cast (i : nat) (cc : cctype) : cctype := match i, cc with 0%nat, CCTime0 => CCTime0 | _, _ => CCBetween end.

  (** near enough and of a pair that counts *)
  Definition near (c : econf R P) (k : nat * nat) (h : hit R P) : bool :=
    negb (existsb (paireqb k) (cd_zero (e_coeffs c))) && Rleb (ct_dist (h_contact h)) (e_margin c k + e_buffer c).
  Definition keep_discrete (c : econf R P) (k : nat * nat) (v0 v1 : bool) (n i : nat) (h : hit R P) : bool :=
    near c k h && ((negb v0 && negb v1) || (v0 && negb (i =? 0)%nat) || (v1 && negb (i =? n)%nat)).
  (** some moving link touches elsewhere than at [e] *)
  Definition off (c : econf R P) (e : cctype) (h : hit R P) : bool :=
    (moves c (fst (h_links h)) && negb (cceqb (fst (ct_cc (h_contact h))) e)) ||
    (moves c (snd (h_links h)) && negb (cceqb (snd (ct_cc (h_contact h))) e)).
  Definition keep_cast (c : econf R P) (k : nat * nat) (v0 v1 : bool) (i : nat) (h : hit R P) : bool :=
    near c k h && ((negb v0 && negb v1) || (v0 && (negb (i =? 0)%nat || off c CCTime0 h)) || v1).
  Definition keep_whole (c : econf R P) (k : nat * nat) (v0 v1 : bool) (h : hit R P) : bool :=
    near c k h && ((negb v0 && negb v1) || (v0 && off c CCTime0 h) || (v1 && off c CCTime1 h)).

  (** what contact tests report: the pair of links has a moving one; a discrete test gives no type, a cast gives one to
      the moving links only *)
  Definition hit_discrete (c : econf R P) (h : hit R P) : Prop :=
    ct_cc (h_contact h) = (CCNone, CCNone) /\ (moves c (fst (h_links h)) = true \/ moves c (snd (h_links h)) = true).
  Definition hit_cast (c : econf R P) (h : hit R P) : Prop :=
    (moves c (fst (h_links h)) = true \/ moves c (snd (h_links h)) = true) /\
    (fst (ct_cc (h_contact h)) = CCNone <-> moves c (fst (h_links h)) = false) /\
    (snd (ct_cc (h_contact h)) = CCNone <-> moves c (snd (h_links h)) = false).
  Definition test_ok (good : hit R P -> Prop) (t : rmap R P) : Prop :=
    NoDup (map fst t) /\ Forall (fun p => Forall good (snd p)) t.

  Lemma test_get good t k : test_ok good t -> Forall good (rm_get k t).
  Proof.
    intros [_ H]. induction H as [|[k' hs] t H _ IH]; cbn [rm_get]; [constructor|]. destruct (paireqb k k'); [exact H|exact IH].
  Qed.
  Lemma filter_map_swap {A B} (f : B -> bool) (g : A -> B) l : filter f (map g l) = map g (filter (fun x => f (g x)) l).
  Proof. induction l as [|x l IH]; cbn; [reflexivity|]. rewrite IH. destruct (f (g x)); reflexivity. Qed.
  Lemma negb_far x y : negb (Rltb y x) = Rleb x y.
  Proof. destruct (Rltb_spec y x), (Rleb_spec x y); auto; lra. Qed.

  Lemma stamp_time_R i n t : (0 < n)%nat -> stamp_time i (1 / IZR (Z.of_nat n)) t = (INR i + Rmax 0 t) / INR n.
  Proof.
    intros N. unfold stamp_time. rnum. rewrite <- !INR_IZR_INZ. assert (INR n <> 0) by (apply not_0_INR; lia).
    destruct (Rltb_spec t 0).
    - rewrite Rmax_left by lra. field. assumption.
    - rewrite Rmax_right by lra. field. assumption.
  Qed.
  Lemma stamp_moment c n i (discrete : bool) h : (0 < n)%nat -> (i < n \/ discrete = true)%nat ->
    (moves c (fst (h_links h)) = true \/ moves c (snd (h_links h)) = true) ->
    stamp (e_active c) i n (1 / IZR (Z.of_nat n)) discrete h = moment c n i (if discrete then kind_discrete n i else kind_cast i) discrete h.
  Proof.
    intros N L A. unfold stamp, moment. rewrite !stamp_time_R by exact N. unfold moves in *. fold (is_active (e_active c)) in *.
    assert (K : forall cc, stamp_type i n discrete cc = (if discrete then kind_discrete n i else kind_cast i) cc).
    { intros cc. unfold stamp_type, kind_discrete, kind_cast. destruct discrete.
      - rewrite !orb_true_r, !andb_true_r. reflexivity.
      - rewrite !orb_false_r. destruct (Nat.eqb_spec i n) as [->|]; [destruct L; [lia|discriminate]|]. cbn.
        destruct i, cc; reflexivity. }
    rewrite !K. f_equal. unfold is_active. destruct discrete; cbn [andb]; [|reflexivity]. destruct A as [-> | ->]; rewrite ?orb_true_r; reflexivity.
  Qed.

  Lemma taken_discrete c n i v0 v1 k hs : (0 < n)%nat -> Forall (hit_discrete c) hs ->
    taken c i n true v0 v1 k hs = map (moment c n i (kind_discrete n i) true) (filter (keep_discrete c k v0 v1 n i) hs).
  Proof.
    intros N H. unfold taken, hit_filter. cbn [fst snd]. rnum.
    assert (E : map (stamp (e_active c) i n (1 / IZR (Z.of_nat n)) true) hs = map (moment c n i (kind_discrete n i) true) hs).
    { apply map_ext_in. intros h I. rewrite Forall_forall in H. apply stamp_moment; auto. apply (H h I). }
    rewrite E. unfold keep_discrete, near. destruct (existsb _ _).
    - cbn [negb andb]. clear. induction hs; [reflexivity|assumption].
    - rewrite filter_map_swap. f_equal. apply filter_ext_in. intros h I. rewrite Forall_forall in H. destruct (H h I) as [C A].
      unfold invalid_contact. cbn [h_contact moment ct_dist ct_cc fst snd side]. rewrite C. cbn [fst snd negb andb]. rnum.
      rewrite <- negb_far. destruct (Rltb _ _); [reflexivity|]. cbn [negb andb]. unfold kind_discrete.
      destruct v0, v1, (i =? 0)%nat eqn:E0, (i =? n)%nat eqn:E1, (moves c (fst (h_links h))), (moves c (snd (h_links h))); cbn; try reflexivity;
        try (destruct A; discriminate); apply Nat.eqb_eq in E0, E1; lia.
  Qed.
  Lemma taken_cast c n i v0 v1 k hs : (i < n)%nat -> Forall (hit_cast c) hs ->
    taken c i n false v0 v1 k hs = map (moment c n i (kind_cast i) false) (filter (keep_cast c k v0 v1 i) hs).
  Proof.
    intros N H. unfold taken, hit_filter. cbn [fst snd]. rnum.
    assert (E : map (stamp (e_active c) i n (1 / IZR (Z.of_nat n)) false) hs = map (moment c n i (kind_cast i) false) hs).
    { apply map_ext_in. intros h I. rewrite Forall_forall in H. apply stamp_moment; auto; [lia|]. apply (H h I). }
    rewrite E. unfold keep_cast, near. destruct (existsb _ _).
    - cbn [negb andb]. clear. induction hs; [reflexivity|assumption].
    - rewrite filter_map_swap. f_equal. apply filter_ext_in. intros h I. rewrite Forall_forall in H. destruct (H h I) as (A & C1 & C2).
      unfold invalid_contact, off. cbn [h_contact moment ct_dist ct_cc fst snd side]. rnum.
      rewrite <- negb_far. destruct (Rltb _ _); [reflexivity|]. cbn [negb andb].
      destruct (moves c (fst (h_links h))), (moves c (snd (h_links h))), (fst (ct_cc (h_contact h))), (snd (ct_cc (h_contact h))), v0, v1, i; cbn; try reflexivity;
        exfalso; first [destruct A; discriminate | discriminate (proj1 C1 eq_refl) | discriminate (proj1 C2 eq_refl) | discriminate (proj2 C1 eq_refl) | discriminate (proj2 C2 eq_refl)].
  Qed.
End Moments.

(** The LVS discrete evaluators of both libraries: of each test, the contacts of pairs that count, near enough, and not at
    a state that is fixed while nothing else is; recorded in order with the time of their state. *)
Theorem C114_discrete : forall P (test : mgr P -> rmap R P) (c : econf R P) v0 v1 ms k, (2 <= length ms)%nat ->
  (forall m, In m ms -> test_ok (hit_discrete c) (test m)) ->
  let n := (length ms - 1)%nat in
  rm_get k (discrete_results test c v0 v1 ms) =
  flat_map (fun p => map (moment c n (fst p) (kind_discrete n (fst p)) true) (filter (keep_discrete c k v0 v1 n (fst p)) (rm_get k (test (snd p)))))
    (combine (seq 0 (length ms)) ms).
Proof.
  intros P test c v0 v1 ms k L H n. unfold discrete_results. rewrite collect_ok.
  - cbn [rm_get app]. rewrite map_length. fold n.
    assert (N : (0 < n)%nat) by (unfold n; lia). clearbody n. clear L. generalize 0%nat as i. induction ms as [|m ms IH]; intros i; cbn [map length seq combine flat_map]; [reflexivity|].
    cbn [fst snd]. rewrite taken_discrete; [f_equal; apply IH; intros; apply H; right; assumption|exact N|].
    eapply test_get, H. left. reflexivity.
  - rewrite Forall_forall. intros t I. apply in_map_iff in I as (m & <- & I). apply (H m I).
  - constructor.
Qed.
Print Assumptions C114_discrete.

(** A subdivided motion of the cast evaluators: only the first segment knows that a contact is at an end of the motion. *)
Theorem C114_cast : forall P (test : mgr P -> rmap R P) older (c : econf R P) a b v0 v1 ms k, subdivided sqrt older c a b = true ->
  (forall m, In m ms -> test_ok (hit_cast c) (test m)) ->
  let n := length ms in
  rm_get k (cast_results sqrt test older c a b v0 v1 ms) =
  flat_map (fun p => map (moment c n (fst p) (kind_cast (fst p)) false) (filter (keep_cast c k v0 v1 (fst p)) (rm_get k (test (snd p)))))
    (combine (seq 0 n) ms).
Proof.
  intros P test older c a b v0 v1 ms k SD H n. unfold cast_results. rewrite SD, collect_ok.
  - cbn [rm_get app]. rewrite map_length. fold n.
    assert (G : forall i ms, (forall m, In m ms -> test_ok (hit_cast c) (test m)) -> (i + length ms <= n)%nat ->
      flat_map (fun p => taken c (fst p) n false v0 v1 k (rm_get k (snd p))) (combine (seq i (length ms)) (map test ms)) =
      flat_map (fun p => map (moment c n (fst p) (kind_cast (fst p)) false) (filter (keep_cast c k v0 v1 (fst p)) (rm_get k (test (snd p))))) (combine (seq i (length ms)) ms)).
    { clearbody n. clear. intros i ms. revert i. induction ms as [|m ms IH]; intros i H L; cbn [map length seq combine flat_map]; [reflexivity|].
      cbn [fst snd length] in *. rewrite taken_cast; [f_equal; apply IH; [intros; apply H; right; assumption|lia]|lia|].
      eapply test_get, H. left. reflexivity. }
    apply G; [exact H|unfold n; lia].
  - rewrite Forall_forall. intros t I. apply in_map_iff in I as (m & <- & I). apply (H m I).
  - constructor.
Qed.
Print Assumptions C114_cast.

(** One state: contacts are recorded as reported, without those of excluded pairs and those too far away. *)
Theorem C114_single : forall P (test : mgr P -> rmap R P) (c : econf R P) m k,
  rm_get k (single_results test c [m]) = filter (fun h => near c k h) (rm_get k (test m)).
Proof.
  intros P test c m k. unfold single_results, filtered.
  assert (G : forall t, rm_get k (map (fun p => (fst p, near_filter c p)) t) = near_filter c (k, rm_get k t)).
  { induction t as [|[k' hs] t IH]; cbn [map rm_get fst].
    - unfold near_filter. cbn. destruct (existsb _ _); reflexivity.
    - destruct (paireqb k k') eqn:E; [|exact IH]. apply paireqb_spec in E. subst. reflexivity. }
  rewrite G. unfold near_filter. cbn [fst snd]. unfold near. destruct (existsb _ _).
  - cbn [negb andb]. induction (rm_get k (test m)); [reflexivity|assumption].
  - apply filter_ext. intros h. rnum. rewrite <- negb_far. reflexivity.
Qed.
Print Assumptions C114_single.

(** The results are taken for those of a whole motion exactly when one test was made for it. *)
Lemma cast_all_length {T} {NT : Num T} {P} older (c : econf T P) rows : forall s s' ms, cast_all older c rows s = Ok (s', ms) -> length ms = (length rows - 1)%nat.
Proof.
  induction rows as [|q rows IH]; intros s s' ms E; cbn [cast_all] in E; [injection E as <- <-; reflexivity|].
  destruct rows as [|q' rows]; [injection E as <- <-; reflexivity|].
  destruct (place_cast older c q q' s) as [s1| |]; cbn [obind] in E; try discriminate.
  destruct (cast_all older c (q' :: rows) s1) as [[s2 ms']| |] eqn:E2; cbn [obind] in E; try discriminate. injection E as <- <-.
  cbn [length]. rewrite (IH _ _ _ E2). cbn [length]. lia.
Qed.
Theorem C114_tests : forall P older (c : econf R P) a b s s' ms, 0 < e_lvs c ->
  cast_tests sqrt Rceil older c a b s = Ok (s', ms) ->
  (subdivided sqrt older c a b = false <-> length ms = 1%nat) /\
  (subdivided sqrt older c a b = true -> older = true \/ e_single c = false).
Proof.
  intros P older c a b s s' ms Lv E. unfold cast_tests in E. destruct (place_diff older c a (clear_caches older s)) as [s1| |]; cbn [obind] in E; try discriminate.
  apply cast_all_length in E. unfold states_continuous in E. unfold subdivided. rnum.
  destruct (is_single older c) eqn:IS; cbn [negb andb] in *.
  - split; [|discriminate]. split; [intros _; exact E|reflexivity].
  - split; [|intros _; unfold is_single in IS; destruct older; [left; reflexivity|right; exact IS]].
    destruct (Rltb (e_lvs c) (vnorm sqrt (vminus b a))) eqn:D.
    + split; [discriminate|]. intros L1. exfalso. apply Rltb_true in D.
      pose proof (seg_cnt_spec _ _ Lv D) as (N & _). unfold interp_rows in E. rewrite map_length, seq_length in E. lia.
    + split; [intros _; exact E|reflexivity].
Qed.
Print Assumptions C114_tests.

(** A motion that is one cast: contacts are recorded as reported, those at a fixed end only are dropped. *)
Theorem C114_whole : forall P (test : mgr P -> rmap R P) older (c : econf R P) a b v0 v1 m k, subdivided sqrt older c a b = false ->
  test_ok (hit_cast c) (test m) ->
  rm_get k (cast_results sqrt test older c a b v0 v1 [m]) = filter (keep_whole c k v0 v1) (rm_get k (test m)).
Proof.
  intros P test older c a b v0 v1 m k SD H. unfold cast_results. rewrite SD. unfold filtered.
  assert (G : forall t, rm_get k (map (fun p => (fst p, hit_filter c v0 v1 p)) t) = hit_filter c v0 v1 (k, rm_get k t)).
  { induction t as [|[k' hs] t IH]; cbn [map rm_get fst].
    - unfold hit_filter. cbn. destruct (existsb _ _); reflexivity.
    - destruct (paireqb k k') eqn:E; [|exact IH]. apply paireqb_spec in E. subst. reflexivity. }
  rewrite G. unfold hit_filter. cbn [fst snd]. unfold keep_whole, near. destruct (existsb _ _).
  - cbn [negb andb]. induction (rm_get k (test m)); [reflexivity|assumption].
  - apply filter_ext_in. intros h I. pose proof (test_get _ _ k H) as F. rewrite Forall_forall in F. destruct (F h I) as (A & C1 & C2).
    unfold invalid_contact, off. cbn [fst snd side]. rnum. rewrite <- negb_far. destruct (Rltb _ _); [reflexivity|]. cbn [negb andb].
    destruct (moves c (fst (h_links h))), (moves c (snd (h_links h))), (fst (ct_cc (h_contact h))), (snd (ct_cc (h_contact h))), v0, v1; cbn; try reflexivity;
        exfalso; first [destruct A; discriminate | discriminate (proj1 C1 eq_refl) | discriminate (proj1 C2 eq_refl) | discriminate (proj2 C1 eq_refl) | discriminate (proj2 C2 eq_refl)].
Qed.
Print Assumptions C114_whole.

(** The times recorded for moving links lie within the motion. *)
Theorem C114_times : forall P (test : mgr P -> rmap R P) older (c : econf R P) a b v0 v1 ms k h (j : bool),
  (In h (rm_get k (discrete_results test c v0 v1 ms)) /\ (2 <= length ms)%nat /\
     (forall m, In m ms -> test_ok (fun h => hit_discrete c h /\ fst (h_time h) < 0 /\ snd (h_time h) < 0) (test m)) \/
   In h (rm_get k (cast_results sqrt test older c a b v0 v1 ms)) /\ subdivided sqrt older c a b = true /\
     (forall m, In m ms -> test_ok (fun h => hit_cast c h /\ fst (h_time h) <= 1 /\ snd (h_time h) <= 1) (test m))) ->
  moves c (side (h_links h) j) = true -> 0 <= side (h_time h) j <= 1.
Proof.
  intros P test older c a b v0 v1 ms k h j H MV.
  assert (W : forall good good' : hit R P -> Prop, (forall x, good x -> good' x) -> (forall m, In m ms -> test_ok good (test m)) -> forall m, In m ms -> test_ok (P := P) good' (test m)).
  { intros g g' I G m M. destruct (G m M) as [A B]. split; [exact A|]. eapply Forall_impl; [|exact B]. intros p. apply Forall_impl. exact I. }
  destruct H as [(I & L & G)|(I & SD & G)].
  - rewrite C114_discrete in I; [|exact L|eapply W; [|exact G]; intros x X; apply X]. apply in_flat_map in I as ([i m] & IP & I). cbn [fst snd] in I.
    apply in_map_iff in I as (x & <- & I). apply filter_In in I as [I _].
    pose proof (in_combine_l _ _ _ _ IP) as Hi. apply in_seq in Hi. pose proof (in_combine_r _ _ _ _ IP) as Hm.
    pose proof (test_get _ _ k (G m Hm)) as F. rewrite Forall_forall in F. destruct (F x I) as (_ & T0 & T1).
    set (n := (length ms - 1)%nat) in *. assert (N : 0 < INR n) by (apply lt_0_INR; lia). assert (IN : 0 <= INR i <= INR n) by (split; [apply pos_INR|apply le_INR; lia]).
    assert (B : 0 <= (INR i + 0) / INR n <= 1).
    { rewrite Rplus_0_r. split; [apply Rmult_le_pos; [lra|left; apply Rinv_0_lt_compat; lra]|]. apply Rmult_le_reg_r with (INR n); [lra|]. unfold Rdiv. rewrite Rmult_assoc, Rinv_l by lra. lra. }
    destruct j; cbn [side moment h_links h_time fst snd] in *; rewrite MV, Rmax_left by lra; exact B.
  - rewrite C114_cast in I; [|exact SD|eapply W; [|exact G]; intros x X; apply X]. apply in_flat_map in I as ([i m] & IP & I). cbn [fst snd] in I.
    apply in_map_iff in I as (x & <- & I). apply filter_In in I as [I _].
    pose proof (in_combine_l _ _ _ _ IP) as Hi. apply in_seq in Hi. pose proof (in_combine_r _ _ _ _ IP) as Hm.
    pose proof (test_get _ _ k (G m Hm)) as F. rewrite Forall_forall in F. destruct (F x I) as (_ & T0 & T1).
    set (n := length ms) in *. assert (N : 0 < INR n) by (apply lt_0_INR; lia).
    assert (IN : 0 <= INR i <= INR n - 1) by (split; [apply pos_INR|rewrite <- (INR_IZR_INZ 1) || idtac; replace (INR n - 1) with (INR (n - 1)) by (rewrite minus_INR by lia; reflexivity); apply le_INR; lia]).
    assert (B : forall t, t <= 1 -> 0 <= (INR i + Rmax 0 t) / INR n <= 1).
    { intros t T. pose proof (Rmax_l 0 t). assert (Rmax 0 t <= 1) by (apply Rmax_lub; lra).
      split; [apply Rmult_le_pos; [lra|left; apply Rinv_0_lt_compat; lra]|]. apply Rmult_le_reg_r with (INR n); [lra|]. unfold Rdiv. rewrite Rmult_assoc, Rinv_l by lra. lra. }
    destruct j; cbn [side moment h_links h_time fst snd] in *; rewrite MV; apply B; assumption.
Qed.
Print Assumptions C114_times.

(** Examples and a counterexample: link 1 moves through the poses 0, 1, 2 and touches link 7 at the very end. *)
Definition num_conf : econf R nat :=
  {| e_active := [1%nat]; e_diff := []; e_state := fun _ _ => None; e_fk := fun _ _ => None; e_coeffs := coeff_new 1; e_margin := fun _ => 1; e_buffer := 0;
     e_lvs := 2; e_single := false |}.
Definition end_hit : hit R nat :=
  {| h_contact := {| ct_dist := 0; ct_shape := (0, 0)%Z; ct_sub := (0, 0)%Z; ct_cc := (CCTime1, CCNone); ct_id := 0 |}; h_links := (1, 7)%nat; h_time := (1, -1);
     h_tf := (1, 7)%nat; h_cctf := (2, 7)%nat; h_local := ((0, 0, 0), (0, 0, 0)); h_normal := (1, 0, 0) |}.
Definition end_test (m : mgr nat) : rmap R nat := if (snd (m 1%nat) =? 2)%nat then [((1, 7)%nat, [end_hit])] else [].
Definition step_poses : list (mgr nat) := [fun _ => (0, 1)%nat; fun _ => (1, 2)%nat].
Lemma end_test_ok m : test_ok (hit_cast num_conf) (end_test m).
Proof.
  unfold end_test. destruct (snd (m 1%nat) =? 2)%nat; split; cbn; repeat constructor; auto; cbn; congruence.
Qed.
Lemma long_motion older : subdivided sqrt older num_conf [0] [4] = true.
Proof.
  unfold subdivided. replace (is_single older num_conf) with false by (destruct older; reflexivity). cbn [negb andb].
  unfold vnorm, vminus. cbn. rnum. apply Rltb_true. replace (_ + _) with (4 * 4) by ring. rewrite sqrt_square; lra.
Qed.

(** The contact at the fixed end of a motion is dropped if the motion is one cast, but recorded (at time 1) if the motion is
    subdivided: last_state_idx is never reached by the loop over segments. *)
Theorem C114_end_refuted : forall older, exists (c : econf R nat) (test : mgr nat -> rmap R nat) a b ms k,
  subdivided sqrt older c a b = true /\ (forall m, In m ms -> test_ok (hit_cast c) (test m)) /\
  (forall m h, In m ms -> In h (rm_get k (test m)) -> h_links h = (1, 7)%nat /\ fst (ct_cc (h_contact h)) = CCTime1 /\ moves c 7 = false) /\
  (exists h, In h (rm_get k (cast_results sqrt test older c a b false true ms)) /\ fst (h_time h) = 1) /\
  (forall a' b' m, subdivided sqrt older c a' b' = false -> rm_get k (cast_results sqrt test older c a' b' false true [m]) = []).
Proof.
  intros older. exists num_conf, end_test, [0], [4], step_poses, (1, 7)%nat.
  split; [apply long_motion|]. split; [intros; apply end_test_ok|]. split; [|split].
  - intros m h _ I. unfold end_test in I. destruct (snd (m 1%nat) =? 2)%nat; cbn in I; [|contradiction]. destruct I as [<-|[]]. auto.
  - rewrite C114_cast; [|apply long_motion|intros; apply end_test_ok]. cbn -[Rmax Rleb INR near keep_cast].
    assert (K : keep_cast num_conf (1, 7)%nat false true 1 end_hit = true).
    { unfold keep_cast, near. cbn -[Rleb]. replace (Rleb 0 (1 + 0)) with true by (symmetry; destruct (Rleb_spec 0 (1 + 0)); [reflexivity|lra]). reflexivity. }
    rewrite K. cbn -[Rmax INR].
    eexists. split; [left; reflexivity|]. cbn -[Rmax INR]. rewrite Rmax_right by lra. replace (INR 2) with 2 by (cbn; lra). replace (INR 1) with 1 by reflexivity. field.
  - intros a' b' m SD. rewrite C114_whole by (assumption || apply end_test_ok). unfold end_test. destruct (snd (m 1%nat) =? 2)%nat; [|reflexivity].
    assert (K : keep_whole num_conf (1, 7)%nat false true end_hit = false) by (unfold keep_whole; apply andb_false_r).
    cbn -[keep_whole]. rewrite K. reflexivity.
Qed.
Print Assumptions C114_end_refuted.

(** Only the first end is treated alike: with the start fixed, a contact at the start is dropped either way. *)
Theorem C114_start : forall P (test : mgr P -> rmap R P) older (c : econf R P) a b ms k h, subdivided sqrt older c a b = true ->
  (forall m, In m ms -> test_ok (hit_cast c) (test m)) ->
  In h (rm_get k (cast_results sqrt test older c a b true false ms)) ->
  (moves c (fst (h_links h)) = true /\ fst (ct_cc (h_contact h)) <> CCTime0) \/ (moves c (snd (h_links h)) = true /\ snd (ct_cc (h_contact h)) <> CCTime0).
Proof.
  intros P test older c a b ms k h SD G I. rewrite C114_cast in I by assumption. apply in_flat_map in I as ([i m] & IP & I). cbn [fst snd] in I.
  apply in_map_iff in I as (x & <- & I). apply filter_In in I as [I K].
  pose proof (test_get _ _ k (G m (in_combine_r _ _ _ _ IP))) as F. rewrite Forall_forall in F. destruct (F x I) as (A & C1 & C2).
  unfold keep_cast, off in K. apply andb_prop in K as [_ K]. cbn [negb andb orb] in K. rewrite orb_false_r in K.
  cbn [moment h_links h_contact ct_cc fst snd]. unfold kind_cast.
  destruct (moves c (fst (h_links x))), (moves c (snd (h_links x))), i, (fst (ct_cc (h_contact x))), (snd (ct_cc (h_contact x))); cbn in K |- *; try discriminate;
    first [left; split; [reflexivity|discriminate] | right; split; [reflexivity|discriminate] | destruct A; discriminate].
Qed.
Print Assumptions C114_start.

Example C114_single_ex : (* a contact at distance 0 with margin 1 is recorded; with the pair excluded it is not *)
  rm_get (1, 7)%nat (single_results end_test num_conf [fun _ => (2, 2)%nat]) = [end_hit] /\
  rm_get (1, 7)%nat (single_results end_test {| e_active := [1%nat]; e_diff := []; e_state := fun _ _ => None; e_fk := fun _ _ => None;
    e_coeffs := {| cd_default := 1; cd_table := []; cd_zero := [(1, 7)%nat] |}; e_margin := fun _ => 1; e_buffer := 0; e_lvs := 2; e_single := false |} [fun _ => (2, 2)%nat]) = [].
Proof.
  rewrite !C114_single. split; cbn.
  - unfold Rleb. destruct (Rle_dec 0 (1 + 0)) as [_|n]; [reflexivity|lra].
  - reflexivity.
Qed.
Example C114_discrete_ex : (* both ends free: the contacts of the three states of a motion are recorded at times 0, 1/2 and 1 *)
  let c := arm_conf (T := R) false in
  let at_ q : mgr (list R) := fun l => if (l =? 1)%nat then ([q], [q]) else ([50], [50]) in
  map (fun h => (fst (ct_cc (h_contact h)), fst (h_time h))) (rm_get (1, 7)%nat (discrete_results arm_test c false false [at_ 0; at_ 1; at_ 2])) =
  [(CCTime0, 0); (CCBetween, 1 / 2); (CCTime1, 1)].
Proof.
  intros c at_. rewrite C114_discrete.
  - assert (K : forall i q p, 0 <= q -> keep_discrete c (1, 7)%nat false false 2 i (hit_at (50 - q) (CCNone, CCNone) (-1, -1) p) = true).
    { intros i q p Q. unfold keep_discrete, near. cbn -[Rleb]. destruct (Rleb_spec (50 - q) (100 + 0)); [reflexivity|lra]. }
    cbn -[Rmax INR keep_discrete hit_at]. rewrite !K by lra. cbn -[Rmax INR]. rewrite !Rmax_left by lra. cbn. repeat f_equal; field.
  - cbn. lia.
  - intros m _. split; cbn; repeat constructor; cbn; auto.
Qed.

(** ** C116: construction of the evaluators *)
(** Each newer evaluator accepts exactly the check types it implements. *)
Theorem C116_types : forall kind t e, evaluator_new false kind t e = TrajoptModel.Done tt <->
  In (kind, t) [(KSingle, TDiscrete); (KDiscrete, TLvsDiscrete); (KCast, TContinuous); (KCast, TLvsContinuous)].
Proof. intros kind t e. split; [destruct kind, t; cbn; intros H; try discriminate; auto|intros [[= <- <-]|[[= <- <-]|[[= <- <-]|[[= <- <-]|[]]]]]; reflexivity]. Qed.
Print Assumptions C116_types.

(** Each older one also wants the kind of expression it can evaluate: one state for the discrete type, a motion otherwise. *)
Theorem C116_ends : forall kind t e, evaluator_new true kind t e = TrajoptModel.Done tt <->
  (kind = KSingle /\ t = TDiscrete /\ e = TrajoptModel.SingleStep) \/
  (In (kind, t) [(KDiscrete, TLvsDiscrete); (KCast, TContinuous); (KCast, TLvsContinuous)] /\ e <> TrajoptModel.SingleStep).
Proof.
  intros kind t e. split.
  - destruct kind, t, e; cbn; intros H; try discriminate H; try (left; repeat split; reflexivity); right; (split; [auto|discriminate]).
  - intros [(-> & -> & ->)|[[[= <- <-]|[[= <- <-]|[[= <- <-]|[]]]] N]]; [reflexivity| | |]; destruct e; reflexivity || contradiction.
Qed.
Print Assumptions C116_ends.

(** The collision terms of a problem: their evaluators accept what hatch passes, except that type NONE throws as soon as there
    is a term to add. *)
Theorem C116_hatch : forall t vars n_dof first last fixed cs,
  TrajoptModel.collision_hatch (match t with TDiscrete => true | _ => false end) vars n_dof first last fixed = TrajoptModel.Done cs ->
  (t <> TNone -> exists l, hatch_evaluators t vars n_dof first last fixed = TrajoptModel.Done l /\ length l = length cs) /\
  (t = TNone -> cs <> [] -> hatch_evaluators t vars n_dof first last fixed = TrajoptModel.Thrown).
Proof.
  intros t vars n_dof first last fixed cs H. unfold hatch_evaluators. rewrite H. cbn [TrajoptModel.rdo].
  assert (E : Forall (fun c => ends_ok (hatch_kind t) (TrajoptModel.ct_ends c) = true) cs).
  { assert (G : forall {A} (f : A -> TrajoptModel.run TrajoptModel.cterm) l cs, (forall x y, f x = TrajoptModel.Done y -> ends_ok (hatch_kind t) (TrajoptModel.ct_ends y) = true) ->
        TrajoptModel.rmap f l = TrajoptModel.Done cs -> Forall (fun c => ends_ok (hatch_kind t) (TrajoptModel.ct_ends c) = true) cs).
    { intros A f l. induction l as [|x l IH]; intros cs' F E; cbn [TrajoptModel.rmap] in E; [injection E as <-; constructor|].
      destruct (f x) as [y| |] eqn:Fx; cbn [TrajoptModel.rdo] in E; try discriminate.
      destruct (TrajoptModel.rmap f l) as [ys| |]; cbn [TrajoptModel.rdo] in E; try discriminate. injection E as <-. constructor; [eapply F, Fx|apply IH; auto]. }
    destruct t; unfold TrajoptModel.collision_hatch in H; (eapply G; [|exact H]); intros x y Y; cbn beta in Y;
      repeat match type of Y with
             | TrajoptModel.rdo ?r _ = _ => let v := fresh "v" in let Q := fresh "Q" in destruct r as [v| |] eqn:Q; cbn [TrajoptModel.rdo] in Y; try discriminate
             end; injection Y as <-; cbn [TrajoptModel.ct_ends]; try reflexivity;
      match goal with Q : TrajoptModel.segment_ends fixed x = TrajoptModel.Done ?v |- _ =>
        unfold TrajoptModel.segment_ends in Q; destruct (TrajoptModel.mem fixed x), (TrajoptModel.mem fixed (x + 1)); cbn in Q; injection Q as <-; reflexivity end. }
  split.
  - intros N. clear H. induction E as [|c cs C E IH]; cbn [TrajoptModel.rmap].
    + exists []. auto.
    + destruct IH as (l & -> & L). unfold evaluator_new. rewrite C. destruct t; try contradiction; cbn; eexists; (split; [reflexivity|cbn; lia]).
  - intros -> N. destruct cs as [|c cs]; [contradiction|]. reflexivity.
Qed.
Print Assumptions C116_hatch.

(** With type CONTINUOUS the newer evaluator checks every motion in one cast. *)
Theorem C116_continuous : forall (T : Type) (NT : Num T) (P : Type) (nsqrt : T -> T) (nceil : T -> Z) (c : econf T P) F m a b,
  e_single c = single_timestep TContinuous -> due nsqrt nceil false KCast c F m a b = [posed c F m a a b].
Proof. intros T NT P nsqrt nceil c F m a b E. unfold due, states_continuous, is_single. rewrite E. reflexivity. Qed.
Print Assumptions C116_continuous.

(** The older one still subdivides: the length that hatch computes for CONTINUOUS is not used. *)
Theorem C116_continuous_refuted : exists (c : econf R (list R)) a b, e_single c = single_timestep TContinuous /\
  (2 <= length (due sqrt Rceil true KCast c (fun q _ => q) still a b))%nat.
Proof.
  exists (arm_conf true), [0], [4]. split; [reflexivity|]. unfold due. rewrite map_length.
  change (is_single true (arm_conf true)) with false. change (e_lvs (arm_conf true)) with 2.
  assert (D : Rdist2 [0] [4] = 4) by (unfold Rdist2; cbn; replace ((4 - 0) * (4 - 0) + 0) with (4 * 4) by ring; apply sqrt_square; lra).
  unfold states_continuous. rewrite vnorm_R by reflexivity. rewrite D. change (@nltb R _) with Rltb. rewrite (proj2 (Rltb_true 2 4)) by lra. cbn [negb andb].
  destruct (seg_cnt_spec 4 2) as (C1 & C2 & C3 & C4); [lra|lra|]. set (n := seg_cnt Rceil 4 2) in *.
  unfold interp_rows. destruct n as [|[|[|n]]]; try lia. cbn. lia.
Qed.
Print Assumptions C116_continuous_refuted.

Example C116_hatch_ex : (* two steps of two joints *)
  exists vars cs, TrajoptModel.collision_hatch false vars 2 0 1 [0%Z] = TrajoptModel.Done cs /\ length cs = 1%nat /\
  hatch_evaluators TContinuous vars 2 0 1 [0%Z] = TrajoptModel.Done [tt] /\ hatch_evaluators TNone vars 2 0 1 [0%Z] = TrajoptModel.Thrown.
Proof. eexists {| ArrayModel.r_rows := 2; ArrayModel.r_cols := 2; ArrayModel.r_data := [0; 1; 2; 3]%nat |}, _. vm_compute. auto. Qed.
