(** * C62, C63, C64, C90-C93: problem construction *)
From Coq Require Import ZArith String List Bool Arith Lia Reals Lra.
From Verif Require Import Num NumFacts Common ScoExprModel ScoExprProofs RSums ArrayModel TrajCostModel CollisionModel TrajoptModel ArrayProps TrajCostProps
  CollisionAvgProofs LayoutProps HatchProps.
Import ListNotations.
Local Open Scope Z_scope.
Notation mat := TrajoptModel.mat.

(** ** Rows of variables *)
Definition row_vars (f : Z -> Z -> nat) (d : nat) (i : Z) : list nat := map (fun j => f i (Z.of_nat j)) (seq 0 d).
Lemma var_row_spec vars m n f d i : cells vars m n f -> Z.of_nat d <= n -> 0 <= i < m -> var_row vars (Z.of_nat d) i = Some (row_vars f d i).
Proof.
  intros (Hr & Hc & Hl & Hm & Hn & Hat) Hd Hi. unfold var_row, rblock. destruct (Z.ltb_spec (Z.of_nat d) 0); [lia|].
  rewrite (collect_spec _ _ (fun j => f i j)).
  - unfold row_vars, range. rewrite map_map, Nat2Z.id. f_equal.
  - intros j Hj. apply in_range in Hj. rewrite Z.add_0_r. apply Hat; lia.
Qed.
Lemma collect_none {A} l (f : Z -> option A) i : In i l -> f i = None -> collect l f = None.
Proof.
  intros Hi E. unfold collect.
  assert (G : forall acc : list A, for_ l acc (fun o i => obnd (f i) (fun v => Some (o ++ [v]))) = None); [|apply G]. unfold for_.
  assert (N : forall l, fold_left (fun (o : option (list A)) x => obnd o (fun s => obnd (f x) (fun v => Some (s ++ [v])))) l None = None) by (induction l0; auto).
  induction l as [|x l IH]; intros acc; [contradiction|]. destruct Hi as [->|Hi]; cbn.
  - rewrite E. cbn. apply N.
  - destruct (f x); cbn; [apply IH; exact Hi|apply N].
Qed.
Lemma var_row_none vars m n f d i : cells vars m n f -> (1 <= d)%nat -> Z.of_nat d <= n -> is_int i -> (i < 0 \/ m <= i) -> var_row vars (Z.of_nat d) i = None.
Proof.
  intros Hc Hd Hdn Hi Hb. unfold var_row, rblock. destruct (Z.ltb_spec (Z.of_nat d) 0); [lia|].
  apply (collect_none _ _ 0); [apply in_range; lia|]. rewrite Z.add_0_r. apply (C55_at_throws vars m n i 0 f Hc); [exact Hi|unfold is_int; lia|]. unfold cells in Hc. nia.
Qed.
Lemma rmap_map {A B} (f : A -> run B) (g : A -> B) l : (forall a, In a l -> f a = Done (g a)) -> rmap f l = Done (map g l).
Proof. induction l as [|a l IH]; intros H; [reflexivity|]. cbn. rewrite H by (left; reflexivity). cbn. rewrite IH by (intros; apply H; right; assumption). reflexivity. Qed.
Lemma rmap_not {A B} (f : A -> run B) l a : In a l -> (forall b, f a <> Done b) -> forall bs, rmap f l <> Done bs.
Proof.
  induction l as [|x l IH]; intros Hi H bs E; [contradiction|]. cbn in E. destruct (f x) eqn:Ex; cbn in E; try discriminate.
  destruct Hi as [->|Hi]; [apply (H a0 Ex)|]. destruct (rmap f l) as [bs'| |] eqn:El; cbn in E; try discriminate. apply (IH Hi H bs'). reflexivity.
Qed.
Lemma mem_spec l i : mem l i = true <-> In i l.
Proof. unfold mem. rewrite existsb_exists. split; [intros (x & Hx & E); apply Z.eqb_eq in E; subst; exact Hx|intros H; exists i; split; [exact H|apply Z.eqb_refl]]. Qed.

(** ** C63 *)
(** the rows of a term that are not fixed *)
Definition unfixed (fixed : list Z) (f : Z -> Z -> nat) (d : nat) (i : Z) : list nat := if mem fixed i then [] else row_vars f d i.

(** no two adjacent steps are fixed: each segment is a term, whose free variables are those of its unfixed ends *)
Theorem C63_partial : forall (vars : array nat) (m n : Z) (f : Z -> Z -> nat) (d : nat) (first last : Z) (fixed : list Z),
  cells vars m n f -> Z.of_nat d <= n -> 0 <= first -> first <= last < m ->
  (forall i, first <= i < last -> In i fixed -> ~ In (i + 1) fixed) ->
  exists l, collision_hatch false vars (Z.of_nat d) first last fixed = Done l /\ map ct_step l = range first (last - first) /\
  forall c, In c l -> ct_vars0 c = row_vars f d (ct_step c) /\ ct_vars1 c = row_vars f d (ct_step c + 1) /\
    free_vars c = unfixed fixed f d (ct_step c) ++ unfixed fixed f d (ct_step c + 1).
Proof.
  intros vars m n f d first last fixed Hc Hd H0 Hl Hadj. unfold collision_hatch.
  pose (kind := fun i => if mem fixed i then FixedFree else if mem fixed (i + 1) then FreeFixed else FreeFree).
  rewrite (rmap_map _ (fun i => {| ct_ends := kind i; ct_step := i; ct_vars0 := row_vars f d i; ct_vars1 := row_vars f d (i + 1) |})).
  - eexists. split; [reflexivity|]. split; [rewrite map_map; cbn; apply map_id|].
    intros c Hin. apply in_map_iff in Hin. destruct Hin as (i & <- & Hi). apply in_range in Hi. cbn [ct_step ct_vars0 ct_vars1]. split; [reflexivity|]. split; [reflexivity|].
    unfold free_vars, unfixed, kind. cbn [ct_ends ct_vars0 ct_vars1]. specialize (Hadj i ltac:(lia)).
    destruct (mem fixed i) eqn:E1; destruct (mem fixed (i + 1)) eqn:E2; cbn; rewrite ?app_nil_r; try reflexivity.
    apply mem_spec in E1, E2. contradiction (Hadj E1 E2).
  - intros i Hi. apply in_range in Hi.
    assert (S1 : segment_ends fixed i = Done (kind i)) by (unfold segment_ends, kind; destruct (mem fixed i), (mem fixed (i + 1)); reflexivity).
    rewrite S1. cbn [rdo]. rewrite (var_row_spec vars m n f d i Hc Hd) by lia. cbn [lift rdo]. rewrite (var_row_spec vars m n f d (i + 1) Hc Hd) by lia. reflexivity.
Qed.
Print Assumptions C63_partial.

(** a segment with both ends fixed is neither skipped nor rejected: its end is treated as free *)
Theorem C63_both_fixed : forall (vars : array nat) (m n : Z) (f : Z -> Z -> nat) (d : nat) (first last : Z) (fixed : list Z) (i : Z),
  cells vars m n f -> Z.of_nat d <= n -> 0 <= first -> first <= last < m -> first <= i < last -> In i fixed -> In (i + 1) fixed ->
  exists l c, collision_hatch false vars (Z.of_nat d) first last fixed = Done l /\ In c l /\ ct_step c = i /\ free_vars c = row_vars f d (i + 1).
Proof.
  intros vars m n f d first last fixed i Hc Hd H0 Hl Hi F1 F2. unfold collision_hatch.
  pose (kind := fun i => if mem fixed i then FixedFree else if mem fixed (i + 1) then FreeFixed else FreeFree).
  pose (mk := fun i => {| ct_ends := kind i; ct_step := i; ct_vars0 := row_vars f d i; ct_vars1 := row_vars f d (i + 1) |}).
  exists (map mk (range first (last - first))), (mk i). split; [|split; [apply in_map, in_range; lia|split; [reflexivity|]]].
  - apply rmap_map. intros k Hk. apply in_range in Hk.
    assert (S1 : segment_ends fixed k = Done (kind k)) by (unfold segment_ends, kind; destruct (mem fixed k), (mem fixed (k + 1)); reflexivity).
    rewrite S1. cbn [rdo]. rewrite (var_row_spec vars m n f d k Hc Hd) by lia. cbn [lift rdo]. rewrite (var_row_spec vars m n f d (k + 1) Hc Hd) by lia. reflexivity.
  - unfold free_vars, mk. cbn [ct_ends ct_vars1]. unfold kind. rewrite (proj2 (mem_spec fixed i) F1). reflexivity.
Qed.
Print Assumptions C63_both_fixed.
Theorem C63_refuted : exists (vars : array nat) (f : Z -> Z -> nat) (fixed : list Z) l c v,
  cells vars 4 2 f /\ collision_accepts 4 0 3 fixed = true /\ collision_hatch false vars 2 0 3 fixed = Done l /\ In c l /\
  In 1 fixed /\ In v (row_vars f 2 1) /\ In v (free_vars c).
Proof.
  destruct (C63_both_fixed vars42 4 2 _ 2 0 3 [0; 1] 0 vars42_cells) as (l & c & E & Hc & _ & F); try lia; try (cbn; auto).
  exists vars42, (fun i j => Z.to_nat (2 * i + j)), [0; 1], l, c, 2%nat. split; [exact vars42_cells|]. split; [reflexivity|]. split; [exact E|].
  split; [exact Hc|]. split; [right; left; reflexivity|]. rewrite F. cbn. auto.
Qed.
Print Assumptions C63_refuted.

(** the discrete evaluator and user-defined terms get exactly the unfixed steps *)
Theorem C63_discrete : forall (vars : array nat) (m n : Z) (f : Z -> Z -> nat) (d : nat) (first last : Z) (fixed : list Z),
  cells vars m n f -> Z.of_nat d <= n -> 0 <= first -> last < m ->
  exists l u, collision_hatch true vars (Z.of_nat d) first last fixed = Done l /\ user_hatch vars (Z.of_nat d) first last fixed = Some u /\
    map ct_step l = map fst u /\
    (forall i, In i (map fst u) <-> first <= i <= last /\ ~ In i fixed) /\ NoDup (map fst u) /\
    (forall c, In c l -> free_vars c = row_vars f d (ct_step c)) /\ (forall s v, In (s, v) u -> v = row_vars f d s).
Proof.
  intros vars m n f d first last fixed Hc Hd H0 Hl. unfold collision_hatch, user_hatch.
  set (steps := filter (fun i => negb (mem fixed i)) (range first (last - first + 1))).
  assert (Hs : forall i, In i steps <-> first <= i <= last /\ ~ In i fixed).
  { intros i. unfold steps. rewrite filter_In, in_range, negb_true_iff. rewrite <- mem_spec. destruct (mem fixed i); split; intros [A B]; (split; [lia|]); congruence. }
  rewrite (rmap_map _ (fun i => {| ct_ends := SingleStep; ct_step := i; ct_vars0 := row_vars f d i; ct_vars1 := [] |})).
  2:{ intros i Hi. apply Hs in Hi. rewrite (var_row_spec vars m n f d i Hc Hd) by lia. reflexivity. }
  rewrite (omap_ok _ (fun i => (i, row_vars f d i))).
  2:{ intros i Hi. apply Hs in Hi. rewrite (var_row_spec vars m n f d i Hc Hd) by lia. reflexivity. }
  do 2 eexists. split; [reflexivity|]. split; [reflexivity|]. rewrite !map_map. cbn [ct_step fst]. rewrite !map_id. split; [reflexivity|]. split; [exact Hs|]. split.
  - unfold steps. apply NoDup_filter. unfold range. apply FinFun.Injective_map_NoDup; [intros a b; lia|apply seq_NoDup].
  - split.
    + intros c Hin. apply in_map_iff in Hin. destruct Hin as (i & <- & _). reflexivity.
    + intros s v Hin. apply in_map_iff in Hin. destruct Hin as (i & [= <- <-] & _). reflexivity.
Qed.
Print Assumptions C63_discrete.
(** steps outside the range are refused *)
Theorem C63_accepts : forall (n first last : Z) (fixed : list Z),
  collision_accepts n first last fixed = true <-> 0 <= first <= last /\ last < n /\ forall s, In s fixed -> first <= s <= last.
Proof.
  intros n first last fixed. unfold collision_accepts. rewrite !andb_true_iff, forallb_forall, !Z.leb_le, !Z.ltb_lt. split.
  - intros [[[A B] [C D]] F]. split; [lia|]. split; [lia|]. intros s Hs. specialize (F s Hs). rewrite negb_true_iff, orb_false_iff, !Z.ltb_ge in F. lia.
  - intros (A & B & F). split; [lia|]. intros s Hs. specialize (F s Hs). rewrite negb_true_iff, orb_false_iff, !Z.ltb_ge. lia.
Qed.
Print Assumptions C63_accepts.
Example C63_ex : exists l, collision_hatch false vars42 2 0 3 [0; 2] = Done l /\ map free_vars l = [[2; 3]; [2; 3]; [6; 7]]%nat.
Proof. eexists. split; [vm_compute; reflexivity|]. reflexivity. Qed.

(** ** C64 *)
Local Open Scope string_scope.
Theorem C64_partial : forall (k : jkind) (members : list string),
  (forall fld, In (fld, true) (reads k) -> In fld members) ->
  (forall m, In m members -> exists req, In (m, req) (reads k)) ->
  (k = KCollision -> ~ In "safety_margin_buffer" members) ->
  params_accepted k members = true.
Proof.
  intros k members Hreq Hall Hsafe. unfold params_accepted, ensure_only_members. rewrite andb_true_iff, !forallb_forall. split.
  - intros [fld req] Hr. cbn. destruct req; [|reflexivity]. cbn. apply existsb_exists. exists fld. split; [apply Hreq, Hr|apply String.eqb_refl].
  - intros mem Hm. apply existsb_exists. exists mem. split; [|apply String.eqb_refl]. destruct (Hall mem Hm) as (req & Hr).
    destruct k; cbn [reads pose_reads joint_reads] in Hr; cbn [fields pose_fields];
      repeat (destruct Hr as [Hr|Hr]; [injection Hr as <- _; cbn; intuition congruence|]); try contradiction.
    all: repeat (destruct Hr as [Hr|Hr]; [injection Hr as <- _; first [exfalso; apply (Hsafe eq_refl Hm)|cbn; intuition congruence]|]); contradiction.
Qed.
Print Assumptions C64_partial.
(** a collision term with the member "safety_margin_buffer", which fromJson reads, is always refused *)
Theorem C64_refuted : exists fld, In (fld, false) (reads KCollision) /\ forall members, In fld members -> params_accepted KCollision members = false.
Proof.
  exists "safety_margin_buffer". split; [cbn; tauto|]. intros members Hm. unfold params_accepted. apply andb_false_iff. right.
  unfold ensure_only_members. destruct (forallb _ members) eqn:E; [|reflexivity]. rewrite forallb_forall in E. specialize (E _ Hm). discriminate E.
Qed.
Print Assumptions C64_refuted.
(** three members are accepted without ever being read *)
Theorem C64_unread : forall (k : jkind) (fld : string),
  In fld (fields k) /\ (~ exists req, In (fld, req) (reads k)) <-> (fld = "use_time" /\ (k = KJointVel \/ k = KJointAcc)) \/ (fld = "type" /\ k = KCollision).
Proof.
  intros k fld. split.
  - intros [Hf Hn]. assert (forall req, ~ In (fld, req) (reads k)) as Hn' by (intros req Hr; apply Hn; exists req; exact Hr). clear Hn.
    destruct k; cbn [fields pose_fields] in Hf; repeat (destruct Hf as [Hf|Hf]; [subst fld; first [solve [exfalso; (apply (Hn' true) || apply (Hn' false)); cbn; tauto]
      |solve [exfalso; apply (Hn' false); cbn; tauto]|tauto]|]); contradiction.
  - intros H. split; [destruct H as [(-> & [-> | ->])|(-> & ->)]; cbn; tauto|]. intros (req & Hr). destruct H as [(-> & [-> | ->])|(-> & ->)]; cbn in Hr; repeat (destruct Hr as [Hr|Hr]; [discriminate Hr|]); contradiction.
Qed.
Print Assumptions C64_unread.
Example C64_ex : params_accepted KCollision ["coeffs"; "dist_pen"; "fixed_steps"] = true /\ params_accepted KCollision ["coeffs"; "dist_pen"; "safety_margin_buffer"] = false /\
  params_accepted KJointPos ["coeffs"] = false /\ params_accepted KJointPos ["targets"; "tragets"] = false.
Proof. vm_compute. auto. Qed.
Local Close Scope string_scope.

(** ** C90: Cartesian velocity terms *)
(** C90: the ranges fromJson accepts *)
Theorem C90_accepts : forall n_steps first last : Z, cart_vel_accepts n_steps first last = true <-> 0 <= first < last /\ last <= n_steps - 1.
Proof. intros. unfold cart_vel_accepts. rewrite !andb_true_iff, !Z.leb_le, !Z.ltb_lt. lia. Qed.
Print Assumptions C90_accepts.
Theorem C90_partial : forall (vars : array nat) (m n : Z) (f : Z -> Z -> nat) (d : nat) (first last : Z),
  cells vars m n f -> Z.of_nat d <= n -> cart_vel_accepts m first last = true -> last < m - 1 ->
  exists l, cart_vel_hatch vars (Z.of_nat d) first last = Some l /\ Z.of_nat (length l) = last - first + 1 /\
  forall k, (k < length l)%nat -> nth_error l k = Some (row_vars f d (first + Z.of_nat k) ++ row_vars f d (first + Z.of_nat k + 1)).
Proof.
  intros vars m n f d first last Hc Hd Ha Hl. unfold cart_vel_accepts in Ha. rewrite !andb_true_iff, !Z.leb_le, !Z.ltb_lt in Ha.
  unfold cart_vel_hatch. rewrite (omap_ok _ (fun i => row_vars f d i ++ row_vars f d (i + 1))).
  - eexists. split; [reflexivity|]. rewrite map_length, range_length. split; [lia|]. intros k Hk. rewrite nth_error_map, range_nth_error by exact Hk. reflexivity.
  - intros i Hi. apply in_range in Hi. rewrite (var_row_spec vars m n f d i Hc Hd), (var_row_spec vars m n f d (i + 1) Hc Hd) by lia. reflexivity.
Qed.
Print Assumptions C90_partial.
(** an accepted range up to the last step always throws in hatch() *)
Theorem C90_last_step : forall (vars : array nat) (m n : Z) (f : Z -> Z -> nat) (d : nat) (first : Z),
  cells vars m n f -> (1 <= d)%nat -> Z.of_nat d <= n -> m + 1 < 2 ^ 31 -> 0 <= first < m - 1 ->
  cart_vel_accepts m first (m - 1) = true /\ cart_vel_hatch vars (Z.of_nat d) first (m - 1) = None.
Proof.
  intros vars m n f d first Hc Hd Hdn Hm Hf. split.
  - unfold cart_vel_accepts. rewrite !andb_true_iff, !Z.leb_le, !Z.ltb_lt. lia.
  - unfold cart_vel_hatch. apply (omap_none _ _ (m - 1)); [apply in_range; lia|]. rewrite (var_row_spec vars m n f d (m - 1) Hc Hdn) by lia. cbn [obnd].
    rewrite (var_row_none vars m n f d (m - 1 + 1) Hc Hd Hdn); [reflexivity|unfold is_int; lia|lia].
Qed.
Print Assumptions C90_last_step.
Theorem C90_refuted : exists (vars : array nat) (f : Z -> Z -> nat) (first last : Z), cells vars 4 2 f /\
  cart_vel_accepts 4 first last = true /\ cart_vel_hatch vars 2 first last = None.
Proof. exists vars42, (fun i j => Z.to_nat (2 * i + j)), 0, 3. split; [exact vars42_cells|]. apply (C90_last_step vars42 4 2 _ 2 0 vars42_cells); lia. Qed.
Print Assumptions C90_refuted.
Example C90_ex : cart_vel_hatch vars42 2 0 1 = Some [[0; 1; 2; 3]; [2; 3; 4; 5]]%nat.
Proof. vm_compute. reflexivity. Qed.

(** ** C91: total time *)
Theorem C91_partial : forall (vars : array nat) (m : Z) (d : nat) (f : Z -> Z -> nat),
  cells vars m (Z.of_nat d + 1) f -> 1 <= m ->
  total_time_vars vars = Some (map (fun k => f (Z.of_nat k + 1) (Z.of_nat d)) (seq 0 (Z.to_nat (m - 1)))).
Proof.
  intros vars m d f (Hr & Hc & Hl & Hm & Hn & Hat) H1. unfold total_time_vars. rewrite Hr, Hc. destruct (Z.ltb_spec (m - 1) 0); [lia|].
  rewrite (omap_ok _ (fun i => f (i + 1) (Z.of_nat d))).
  - unfold range. rewrite map_map. reflexivity.
  - intros i Hi. apply in_range in Hi. replace (Z.of_nat d + 1 - 1) with (Z.of_nat d) by lia. apply Hat; lia.
Qed.
Print Assumptions C91_partial.
(** a total time term without the time flag passes the checks of a problem without time; its "times" are then
    the positions of the last joint *)
Theorem C91_refuted : exists p vars, traj_prob 3 2 false [(-(1), 1); (-(2), 2)] 5 6 = Done (p, vars) /\
  check_time [{| ti_type := TT_COST; ti_supported := 7 |}] [] false = Some tt /\
  exists ts, total_time_vars vars = Some ts /\ map (fun v => option_map fst (nth_error p v)) ts = [Some (NCell prefix_j 1 1); Some (NCell prefix_j 2 1)].
Proof. do 2 eexists. split; [vm_compute; reflexivity|]. split; [reflexivity|]. eexists. split; [vm_compute; reflexivity|]. reflexivity. Qed.
Print Assumptions C91_refuted.
Example C91_ex : exists p vars ts, traj_prob 3 2 true [(-(1), 1); (-(2), 2)] 5 6 = Done (p, vars) /\ total_time_vars vars = Some ts /\
  map (fun v => option_map fst (nth_error p v)) ts = [Some (NDt 1); Some (NDt 2)].
Proof. do 3 eexists. split; [vm_compute; reflexivity|]. split; [vm_compute; reflexivity|]. reflexivity. Qed.

(** ** C93: time flags *)
Lemma check_terms_spec kind l : match check_terms kind l with
  | Some b => (forall t, In t l -> has (ti_supported t) kind = true /\ (has (ti_type t) TT_USE_TIME = true -> has (ti_supported t) TT_USE_TIME = true)) /\
              (b = true <-> exists t, In t l /\ has (ti_type t) TT_USE_TIME = true)
  | None => exists t, In t l /\ (has (ti_supported t) kind = false \/ has (ti_type t) TT_USE_TIME = true /\ has (ti_supported t) TT_USE_TIME = false)
  end.
Proof.
  induction l as [|t l IH]; cbn [check_terms].
  - split; [contradiction|]. split; [discriminate|]. intros (t & [] & _).
  - destruct (has (ti_supported t) kind) eqn:E1; cbn [negb]; [|exists t; split; [left; reflexivity|left; exact E1]].
    destruct (has (ti_type t) TT_USE_TIME) eqn:E2; destruct (has (ti_supported t) TT_USE_TIME) eqn:E3; cbn [negb andb];
      try (exists t; split; [left; reflexivity|right; split; assumption]);
      (destruct (check_terms kind l) as [b|]; cbn [obnd orb];
       [destruct IH as [A B]|destruct IH as (t' & Ht & H'); exists t'; split; [right; exact Ht|exact H']]).
    + split; [intros t' [<-|Ht]; [split; [exact E1|intros _; exact E3]|apply A, Ht]|]. split; [intros _; exists t; split; [left; reflexivity|exact E2]|reflexivity].
    + split; [intros t' [<-|Ht]; [split; [exact E1|congruence]|apply A, Ht]|]. rewrite B. split; intros (t' & Ht & H'); [exists t'; split; [right; exact Ht|exact H']|].
      destruct Ht as [<-|Ht]; [congruence|exists t'; split; assumption].
    + split; [intros t' [<-|Ht]; [split; [exact E1|congruence]|apply A, Ht]|]. rewrite B. split; intros (t' & Ht & H'); [exists t'; split; [right; exact Ht|exact H']|].
      destruct Ht as [<-|Ht]; [congruence|exists t'; split; assumption].
Qed.
(** ConstructProblem accepts the terms exactly when each supports its role and the use of time, and the problem
    has time exactly when some term uses it *)
Theorem C93_accepts : forall (costs cnts : list tinfo) (use_time : bool),
  check_time costs cnts use_time = Some tt <->
    (forall t, In t costs -> has (ti_supported t) TT_COST = true) /\ (forall t, In t cnts -> has (ti_supported t) TT_CNT = true) /\
    (forall t, In t (costs ++ cnts) -> has (ti_type t) TT_USE_TIME = true -> has (ti_supported t) TT_USE_TIME = true) /\
    (use_time = true <-> exists t, In t (costs ++ cnts) /\ has (ti_type t) TT_USE_TIME = true).
Proof.
  intros costs cnts use_time. unfold check_time. pose proof (check_terms_spec TT_COST costs) as P. pose proof (check_terms_spec TT_CNT cnts) as Q.
  destruct (check_terms TT_COST costs) as [a|]; cbn [obnd].
  2:{ split; [discriminate|]. intros (A & _ & C & _). destruct P as (t & Ht & [H|[H1 H2]]); [rewrite A in H by exact Ht; discriminate|].
      rewrite (C t) in H2; [discriminate|apply in_or_app; left; exact Ht|exact H1]. }
  destruct (check_terms TT_CNT cnts) as [b|]; cbn [obnd].
  2:{ split; [discriminate|]. intros (_ & A & C & _). destruct Q as (t & Ht & [H|[H1 H2]]); [rewrite A in H by exact Ht; discriminate|].
      rewrite (C t) in H2; [discriminate|apply in_or_app; right; exact Ht|exact H1]. }
  destruct P as [P1 P2]. destruct Q as [Q1 Q2].
  assert (EX : a || b = true <-> exists t, In t (costs ++ cnts) /\ has (ti_type t) TT_USE_TIME = true).
  { rewrite orb_true_iff, P2, Q2. setoid_rewrite in_app_iff. split.
    - intros [(t & H1 & H2)|(t & H1 & H2)]; exists t; auto.
    - intros (t & [H1|H1] & H2); [left|right]; exists t; auto. }
  assert (G : (if (a || b) && negb use_time then None else if negb (a || b) && use_time then None else Some tt) = Some tt <-> (use_time = true <-> a || b = true)).
  { destruct (a || b), use_time; cbn; split; try discriminate; try reflexivity; try tauto; intros [H1 H2]; try (specialize (H1 eq_refl); discriminate); specialize (H2 eq_refl); discriminate. }
  rewrite G, EX. split.
  - intros H. split; [intros t Ht; apply P1, Ht|]. split; [intros t Ht; apply Q1, Ht|]. split; [|exact H].
    intros t Ht. apply in_app_or in Ht. destruct Ht as [Ht|Ht]; [apply P1, Ht|apply Q1, Ht].
  - intros (_ & _ & _ & H). exact H.
Qed.
Print Assumptions C93_accepts.
Example C93_ex : check_time [{| ti_type := 5; ti_supported := 7 |}] [{| ti_type := 2; ti_supported := 3 |}] true = Some tt /\
  check_time [{| ti_type := 5; ti_supported := 7 |}] [{| ti_type := 2; ti_supported := 3 |}] false = None /\
  check_time [{| ti_type := 5; ti_supported := 3 |}] [] true = None.
Proof. vm_compute. auto. Qed.

(** ** C92: the initial trajectory *)
Local Open Scope R_scope.
Theorem C92_interpolated : forall (start goal : list R) (data : mat R) (n : nat) (use_time : bool) (dt : R),
  length goal = length start -> (2 <= n)%nat ->
  (m_rows data = [goal] /\ m_cols data = length start \/ m_rows data = map (fun g => [g]) goal /\ m_cols data = 1%nat) ->
  exists t, init_traj JointInterpolated start data (Z.of_nat n) use_time dt = Done t /\
    check_init t (Z.of_nat n) (length start) use_time = Done t /\ length (m_rows t) = n /\
    forall i j, (i < n)%nat -> (j < length start)%nat ->
      let row := nth i (m_rows t) [] in
      nth j row 0 = nth j start 0 + INR i / INR (n - 1) * (nth j goal 0 - nth j start 0) /\
      (use_time = true -> nth (length start) row 0 = dt) /\ length row = (length start + (if use_time then 1 else 0))%nat.
Proof.
  intros start goal data n use_time dt Hg Hn Hd.
  assert (E : init_traj JointInterpolated start data (Z.of_nat n) use_time dt =
     Done (if use_time then {| m_rows := map (fun r => r ++ [dt]) (interp_rows n start goal); m_cols := length start + 1 |} else {| m_rows := interp_rows n start goal; m_cols := length start |})).
  { unfold init_traj. destruct (Z.ltb_spec (Z.of_nat n) 0) as [L|L]; [lia|]. rewrite Nat2Z.id. destruct Hd as [[Hr Hc]|[Hr Hc]].
    - rewrite Hr, Hc. cbn [length Nat.eqb andb nth]. rewrite Nat.eqb_refl. reflexivity.
    - rewrite Hr, Hc, map_length, Hg, Nat.eqb_refl.
      assert (M : map (fun r : list R => nth 0 r nzero) (map (fun g => [g]) goal) = goal) by (rewrite map_map; cbn; apply map_id).
      destruct (Nat.eqb_spec (length start) 1) as [E1|E1].
      + rewrite E1. cbn [Nat.eqb andb]. destruct goal as [|g [|g' goal]]; cbn [length] in Hg; try lia. reflexivity.
      + cbn [andb]. rewrite M. reflexivity. }
  assert (Li : length (interp_rows n start goal) = n) by (unfold interp_rows; rewrite map_length, seq_length; reflexivity).
  assert (Lr : forall i, (i < n)%nat -> length (nth i (interp_rows n start goal) []) = length start).
  { intros i Hi. rewrite interp_row by assumption. rewrite map_length, combine_length. lia. }
  assert (V : forall i j, (i < n)%nat -> (j < length start)%nat -> nth j (nth i (interp_rows n start goal) []) 0 = nth j start 0 + INR i / INR (n - 1) * (nth j goal 0 - nth j start 0)).
  { intros i j Hi Hj. rewrite interp_row by assumption. rewrite (map_nth_in _ _ j (0, 0)) by (rewrite combine_length; lia). rewrite combine_nth by (symmetry; exact Hg). cbn [fst snd].
    assert (INR (n - 1) <> 0) by (apply not_0_INR; lia). field. assumption. }
  eexists. split; [exact E|]. destruct use_time; unfold check_init; cbn [m_rows m_cols]; rewrite ?map_length, Li, Z.eqb_refl; rewrite ?Nat.add_0_r, Nat.eqb_refl; (split; [reflexivity|]); (split; [reflexivity|]);
    intros i j Hi Hj; cbv zeta.
  - rewrite (map_nth_in _ _ i []) by (rewrite Li; exact Hi). specialize (Lr i Hi). split; [|split].
    + rewrite app_nth1 by (rewrite Lr; exact Hj). apply V; assumption.
    + intros _. rewrite app_nth2 by (rewrite Lr; lia). rewrite Lr, Nat.sub_diag. reflexivity.
    + rewrite app_length, Lr. reflexivity.
  - split; [apply V; assumption|]. split; [discriminate|]. rewrite (Lr i Hi). lia.
Qed.
Print Assumptions C92_interpolated.
(** with a single step the trajectory is the goal *)
Theorem C92_single_step : forall (start goal : list R) (dt : R), length goal = length start ->
  init_traj JointInterpolated start {| m_rows := [goal]; m_cols := length start |} 1 false dt = Done {| m_rows := [goal]; m_cols := length start |}.
Proof.
  intros start goal dt Hg. unfold init_traj. cbn [m_rows m_cols length Nat.eqb andb nth Z.ltb Z.compare]. rewrite Nat.eqb_refl. cbn [rdo]. do 2 f_equal.
  change (Z.to_nat 1) with 1%nat. unfold interp_rows. cbn [seq map]. f_equal.
  apply (nth_ext _ _ 0 0); [rewrite map_length, combine_length; lia|]. intros j Hj. rewrite map_length, combine_length in Hj.
  rewrite (map_nth_in _ _ j (0, 0)) by (rewrite combine_length; lia). rewrite combine_nth by (symmetry; exact Hg). cbn [fst snd].
  unfold lin_spaced. cbn [Nat.eqb seq map nth]. rnum. destruct (Rltb _ _) eqn:F; [reflexivity|]. cbn. ring.
Qed.
Print Assumptions C92_single_step.
(** an endpoint of any other shape throws *)
Theorem C92_shape : forall (start : list R) (data : mat R) (n : nat) (use_time : bool) (dt : R),
  ~ (length (m_rows data) = 1%nat /\ m_cols data = length start) -> ~ (length (m_rows data) = length start /\ m_cols data = 1%nat) ->
  init_traj JointInterpolated start data (Z.of_nat n) use_time dt = Thrown.
Proof.
  intros start data n use_time dt H1 H2. unfold init_traj.
  destruct (Nat.eqb_spec (length (m_rows data)) 1), (Nat.eqb_spec (m_cols data) (length start)), (Nat.eqb_spec (length (m_rows data)) (length start)), (Nat.eqb_spec (m_cols data) 1);
    cbn [andb]; try reflexivity; exfalso; auto.
Qed.
Print Assumptions C92_shape.
(** the other two kinds, and the size check *)
Theorem C92_others : forall (start : list R) (data : mat R) (n : nat) (use_time : bool) (dt : R),
  (exists t, init_traj Stationary start data (Z.of_nat n) use_time dt = Done t /\ check_init t (Z.of_nat n) (length start) use_time = Done t /\
     m_rows t = repeat (start ++ (if use_time then [dt] else [])) n) /\
  (exists t, init_traj GivenTraj start data (Z.of_nat n) use_time dt = Done t /\
     m_rows t = map (fun r => r ++ (if use_time then [dt] else [])) (m_rows data) /\
     (check_init t (Z.of_nat n) (length start) use_time = (if (length (m_rows data) =? n)%nat && (m_cols data =? length start)%nat then Done t else Thrown))).
Proof.
  intros start data n use_time dt. split.
  - unfold init_traj. destruct (Z.ltb_spec (Z.of_nat n) 0); [lia|]. rewrite Nat2Z.id. cbn [rdo m_rows m_cols]. eexists. split; [reflexivity|].
    destruct use_time; unfold check_init; cbn [m_rows m_cols]; rewrite ?map_length, repeat_length, Z.eqb_refl; rewrite ?Nat.add_0_r, Nat.eqb_refl; (split; [reflexivity|]).
    + clear H. induction n; cbn; [reflexivity|]. f_equal. exact IHn.
    + rewrite app_nil_r. reflexivity.
  - unfold init_traj. cbn [rdo]. eexists. split; [reflexivity|].
    assert (Z : forall k, (Z.of_nat k =? Z.of_nat n)%Z = (k =? n)%nat) by (intros k; destruct (Nat.eqb_spec k n); destruct (Z.eqb_spec (Z.of_nat k) (Z.of_nat n)); lia || reflexivity).
    assert (P : forall k, (m_cols data + k =? length start + k)%nat = (m_cols data =? length start)%nat) by (intros k; destruct (Nat.eqb_spec (m_cols data + k) (length start + k)); destruct (Nat.eqb_spec (m_cols data) (length start)); lia || reflexivity).
    destruct use_time; unfold check_init; cbn [m_rows m_cols]; rewrite ?map_length, Z.
    + split; [reflexivity|]. rewrite P. reflexivity.
    + split; [symmetry; rewrite (map_ext _ (fun r => r)) by (intros; apply app_nil_r); apply map_id|]. rewrite Nat.add_0_r. reflexivity.
Qed.
Print Assumptions C92_others.
Example C92_ex : exists t, init_traj JointInterpolated [0; 2] {| m_rows := [[1; 4]]; m_cols := 2 |} 3 true 5 = Done t /\ nth 1 (nth 1 (m_rows t) []) 0 = 3 /\ nth 2 (nth 0 (m_rows t) []) 0 = 5.
Proof.
  destruct (C92_interpolated [0; 2] [1; 4] {| m_rows := [[1; 4]]; m_cols := 2 |} 3 true 5) as (t & E & _ & _ & V); try reflexivity; [lia|left; split; reflexivity|].
  exists t. split; [exact E|]. split.
  - destruct (V 1%nat 1%nat) as (A & _); [lia|cbn; lia|]. rewrite A. cbn. lra.
  - destruct (V 0%nat 1%nat) as (_ & B & _); [lia|cbn; lia|]. apply B. reflexivity.
Qed.

(** ** C62 *)
Local Open Scope Z_scope.
(** a matrix of the right size *)
Definition sized_mat (m : mat R) (rows cols : Z) : Prop := Z.of_nat (length (m_rows m)) = rows /\ Z.of_nat (m_cols m) = cols.
Definition entry (m : mat R) (i j : Z) : R := nth (Z.to_nat j) (nth (Z.to_nat i) (m_rows m) []) 0%R.

Lemma operands_ok rtl vars m n f (tr : mat R) i j : cells vars m n f -> sized_mat tr m n -> 0 <= i < m -> 0 <= j < n ->
  operands rtl vars tr i j = Done (f i j, entry tr i j).
Proof.
  intros (_ & _ & _ & _ & _ & Hat) (Hr & Hc) Hi Hj. unfold operands, mat_at. rewrite Hr, Hc, Hat by assumption.
  destruct (Z.leb_spec 0 i); [|lia]. destruct (Z.ltb_spec i m); [|lia]. destruct (Z.leb_spec 0 j); [|lia]. destruct (Z.ltb_spec j n); [|lia]. destruct rtl; reflexivity.
Qed.
Lemma operands_bad rtl vars m n f (tr : mat R) i j : cells vars m n f -> sized_mat tr m n -> ~ (0 <= i < m /\ 0 <= j < n) -> forall r, operands rtl vars tr i j <> Done r.
Proof.
  intros Hc (Hr & Hcol) Hb r. unfold operands. assert (A : mat_at tr i j = Assert).
  { unfold mat_at. rewrite Hr, Hcol. destruct (Z.leb_spec 0 i); destruct (Z.ltb_spec i m); destruct (Z.leb_spec 0 j); destruct (Z.ltb_spec j n); cbn; try reflexivity. lia. }
  rewrite A. destruct rtl; cbn; [discriminate|]. destruct (at_ vars i j); cbn; discriminate.
Qed.

(** valid entries: the equality constraints hold at x exactly when x agrees with the initial trajectory there *)
Theorem C62_fixed : forall (rtl use_time : bool) (vars : array nat) (m : Z) (d : nat) (f : Z -> Z -> nat) (tr : mat R) (steps dofs : list Z),
  let n := Z.of_nat d + (if use_time then 1 else 0) in
  cells vars m n f -> sized_mat tr m n ->
  (forall t, In t steps -> 0 <= t < m) -> (forall j, In j dofs -> 0 <= j < Z.of_nat d) ->
  exists l, fix_all rtl vars tr d use_time steps dofs = Done l /\
     length l = (length steps * d + length dofs * length (filter (fun i => negb (mem steps i)) (range 0 m)))%nat /\
     forall x, (forall e, In e l -> aff_value e x = 0%R) <->
      (forall t j, In t steps -> 0 <= j < Z.of_nat d -> nth (f t j) x 0%R = entry tr t j) /\
    (forall i j, 0 <= i < m -> In j dofs -> nth (f i j) x 0%R = entry tr i j).
Proof.
  intros rtl use_time vars m d f tr steps dofs n Hc Hm Hs Hd. unfold fix_all, fix_steps, fix_dofs.
  pose (eqn := fun i j => aff_dec_const (aff_var (f i j)) (entry tr i j)). pose (eqn' := fun i j => aff_dec (aff_var (f i j)) (aff_const (entry tr i j))).
  pose (free := filter (fun i => negb (mem steps i)) (range 0 m)).
  rewrite (rmap_map _ (fun t => map (eqn t) (range 0 (Z.of_nat d)))).
  2:{ intros t Ht. specialize (Hs t Ht). destruct Hm as (Hr & Hcol). rewrite Hr. destruct (Z.ltb_spec m t); [lia|].
      replace (m_cols tr =? d + (if use_time then 1 else 0))%nat with true by (symmetry; apply Nat.eqb_eq; unfold n in Hcol; destruct use_time; lia). cbn [negb].
      apply rmap_map. intros j Hj. apply in_range in Hj. rewrite (operands_ok rtl vars m n f tr t j Hc (conj Hr Hcol)) by (unfold n; destruct use_time; lia). reflexivity. }
  cbn [rdo].
  rewrite (rmap_map _ (fun j => map (fun i => eqn' i j) free)).
  2:{ intros j Hj. specialize (Hd j Hj). destruct (Z.ltb_spec (Z.of_nat d) j); [lia|]. rewrite (proj1 Hc). apply rmap_map. intros i Hi.
      apply filter_In in Hi. destruct Hi as (Hi & _). apply in_range in Hi. rewrite (operands_ok rtl vars m n f tr i j Hc Hm) by (unfold n; destruct use_time; lia). reflexivity. }
  cbn [rdo]. eexists. split; [reflexivity|]. split.
  - rewrite app_length. f_equal.
    + rewrite (concat_len d); [rewrite map_length; reflexivity|]. apply Forall_forall. intros r Hr. apply in_map_iff in Hr. destruct Hr as (t & <- & _). rewrite map_length, range_length. lia.
    + rewrite (concat_len (length free)); [rewrite map_length; reflexivity|]. apply Forall_forall. intros r Hr. apply in_map_iff in Hr. destruct Hr as (t & <- & _). apply map_length.
  - intros x.
    assert (V : forall i j, aff_value (eqn i j) x = (nth (f i j) x 0 - entry tr i j)%R).
    { intros i j. unfold eqn. rewrite aff_dec_const_value, aff_var_value. reflexivity. }
    assert (V' : forall i j, aff_value (eqn' i j) x = (nth (f i j) x 0 - entry tr i j)%R).
    { intros i j. unfold eqn'. rewrite aff_dec_value, aff_var_value, aff_const_value by reflexivity. reflexivity. }
    setoid_rewrite in_app_iff. split.
    + intros H.
      assert (A : forall t j, In t steps -> 0 <= j < Z.of_nat d -> nth (f t j) x 0%R = entry tr t j).
      { intros t j Ht Hj. assert (Z0 : aff_value (eqn t j) x = 0%R).
        { apply H. left. apply in_concat. exists (map (eqn t) (range 0 (Z.of_nat d))). split; [apply (in_map (fun t => map (eqn t) (range 0 (Z.of_nat d)))), Ht|]. apply in_map, in_range. lia. }
        rewrite V in Z0. lra. }
      split; [exact A|]. intros i j Hi Hj. destruct (mem steps i) eqn:E; [apply A; [apply mem_spec, E|apply Hd, Hj]|].
      assert (Z0 : aff_value (eqn' i j) x = 0%R).
      { apply H. right. apply in_concat. exists (map (fun i => eqn' i j) free). split; [apply (in_map (fun j => map (fun i => eqn' i j) free)), Hj|].
        apply (in_map (fun i => eqn' i j)). apply filter_In. split; [apply in_range; lia|]. rewrite E. reflexivity. }
      rewrite V' in Z0. lra.
    + intros [A B] e [He|He]; apply in_concat in He; destruct He as (r & Hr & He); apply in_map_iff in Hr; destruct Hr as (k & <- & Hk); apply in_map_iff in He; destruct He as (q & <- & Hq).
      * apply in_range in Hq. rewrite V, A by (auto; lia). lra.
      * apply filter_In in Hq. destruct Hq as (Hq & _). apply in_range in Hq. rewrite V', B by (auto; lia). lra.
Qed.
Print Assumptions C62_fixed.

(** an entry that is not a step never gives a problem; nor does a joint index below 0 or above the number of
    joints (and, without time, equal to it), as long as some step is not fixed *)
Theorem C62_rejected_partial : forall (rtl use_time : bool) (vars : array nat) (m : Z) (d : nat) (f : Z -> Z -> nat) (tr : mat R) (steps dofs : list Z),
  let n := Z.of_nat d + (if use_time then 1 else 0) in
  cells vars m n f -> sized_mat tr m n -> (1 <= d)%nat ->
  (exists t, In t steps /\ ~ 0 <= t < m) \/
  (exists j, In j dofs /\ (Z.of_nat d < j \/ ~ 0 <= j < n /\ exists i, 0 <= i < m /\ ~ In i steps)) ->
  forall l, fix_all rtl vars tr d use_time steps dofs <> Done l.
Proof.
  intros rtl use_time vars m d f tr steps dofs n Hc Hm Hd Hbad l. unfold fix_all.
  destruct Hbad as [(t & Ht & Hb)|(j & Hj & Hb)].
  - assert (F : forall l, fix_steps rtl vars tr d use_time steps <> Done l).
    { intros l'. unfold fix_steps. match goal with |- context [rmap ?g steps] => assert (N : forall bs, rmap g steps <> Done bs) end.
      { apply (rmap_not _ _ t Ht). intros b. destruct Hm as (Hr & Hcol). rewrite Hr. destruct (Z.ltb_spec m t); [discriminate|].
        destruct (negb _); [discriminate|]. apply (rmap_not _ _ 0); [apply in_range; lia|]. intros b'.
        pose proof (operands_bad rtl vars m n f tr t 0 Hc (conj Hr Hcol) ltac:(lia)) as O. destruct (operands rtl vars tr t 0) as [o| |]; cbn; try discriminate. contradiction (O o eq_refl). }
      destruct (rmap _ steps) as [o| |]; cbn; try discriminate. contradiction (N o eq_refl). }
    destruct (fix_steps rtl vars tr d use_time steps) as [o| |]; cbn; try discriminate. contradiction (F o eq_refl).
  - assert (F : forall l, fix_dofs rtl vars tr d steps dofs <> Done l).
    { intros l'. unfold fix_dofs. match goal with |- context [rmap ?g dofs] => assert (N : forall bs, rmap g dofs <> Done bs) end.
      { apply (rmap_not _ _ j Hj). intros b. destruct (Z.ltb_spec (Z.of_nat d) j); [discriminate|]. destruct Hb as [Hb|(Hb & i & Hi & Hni)]; [lia|].
        apply (rmap_not _ _ i). { apply filter_In. rewrite (proj1 Hc). split; [apply in_range; lia|]. rewrite <- mem_spec in Hni. destruct (mem steps i); [contradiction Hni; reflexivity|reflexivity]. }
        intros b'. pose proof (operands_bad rtl vars m n f tr i j Hc Hm ltac:(tauto)) as O. destruct (operands rtl vars tr i j) as [o| |]; cbn; try discriminate. contradiction (O o eq_refl). }
      destruct (rmap _ dofs) as [o| |]; cbn; try discriminate. contradiction (N o eq_refl). }
    destruct (fix_steps rtl vars tr d use_time steps); cbn; try discriminate. destruct (fix_dofs rtl vars tr d steps dofs) as [o| |]; cbn; try discriminate. contradiction (F o eq_refl).
Qed.
Print Assumptions C62_rejected_partial.

(** with time, the joint index n_dof is accepted and fixes the time variables *)
Theorem C62_refuted : exists (vars : array nat) (p : opt_prob R) (tr : mat R) l,
  traj_prob 3 2 true [((-1)%R, 1%R); ((-1)%R, 1%R)] 1%R 2%R = Done (p, vars) /\ sized_mat tr 3 3 /\
    fix_all false vars tr 2 true [] [2] = Done l /\ length l = 3%nat /\
    forall e, In e l -> exists v i b, a_vars e = [v] /\ nth_error p v = Some (NDt i, b).
Proof.
  eexists. eexists. exists {| m_rows := [[0; 0; 1]; [0; 0; 1]; [0; 0; 1]]%R; m_cols := 3 |}. eexists.
  split; [cbv; reflexivity|]. split; [split; reflexivity|]. split; [cbn; reflexivity|]. split; [reflexivity|].
  cbn. intros e [<-|[<-|[<-|[]]]]; cbn; do 3 eexists; split; reflexivity.
Qed.
Print Assumptions C62_refuted.
Example C62_ex : exists l, fix_all true vars42 {| m_rows := repeat [1%R; 2%R] 4; m_cols := 2 |} 2 false [1; 3] [0] = Done l /\ length l = 6%nat /\
    forall t, fix_all true vars42 {| m_rows := repeat [1%R; 2%R] 4; m_cols := 2 |} 2 false [4] [] <> Done t.
Proof.
  destruct (C62_fixed true false vars42 4 2 _ {| m_rows := repeat [1%R; 2%R] 4; m_cols := 2 |} [1; 3] [0] vars42_cells) as (l & E & L & _); [split; reflexivity| | |].
  - intros t [<-|[<-|[]]]; lia.
  - intros j [<-|[]]; lia.
  - exists l. split; [exact E|]. split; [exact L|].
    apply (C62_rejected_partial true false vars42 4 2 _ _ [4] [] vars42_cells); [split; reflexivity|lia|]. left. exists 4. split; [left; reflexivity|lia].
Qed.
