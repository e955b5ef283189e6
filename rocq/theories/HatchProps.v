(** * C61, C65, C94: step ranges, parameter sizes and the joint terms *)
From Coq Require Import ZArith List Bool Arith Lia Reals Lra.
From Verif Require Import Num NumFacts Common ScoExprModel RSums ArrayModel TrajCostModel TrajoptModel ArrayProps TrajCostProps LayoutProps.
Import ListNotations.
Local Open Scope Z_scope.

(** ** C65 *)
Theorem C65_accepts : forall {T : Type} {NT : Num T} (p : list T) (expected : nat) (apply_first : bool) (q : list T),
  check_parameter_size p expected apply_first = Done q <->
    (length p = expected /\ q = p) \/
    (apply_first = true /\ exists a, p = [a] /\ length q = expected /\ forall i, (i < expected)%nat -> nth_error q i = Some a).
Proof.
  intros T NT p expected apply_first q. unfold check_parameter_size.
  assert (RP : forall (a : T) l e, length l = e -> (forall i, (i < e)%nat -> nth_error l i = Some a) -> l = repeat a e).
  { intros a l; induction l as [|b l IH]; intros e L H; cbn in L; subst e; [reflexivity|]. cbn [length repeat]. f_equal.
    - specialize (H 0%nat ltac:(lia)). cbn in H. congruence.
    - apply IH; [reflexivity|]. intros i Hi. apply (H (S i)). lia. }
  destruct (apply_first && (length p =? 1)%nat) eqn:E.
  - apply andb_prop in E. destruct E as [-> E]. apply Nat.eqb_eq in E. destruct p as [|a [|b p]]; try discriminate. cbn [nth]. split.
    + intros [= <-]. right. split; [reflexivity|]. exists a. split; [reflexivity|]. split; [apply repeat_length|]. intros i Hi. apply nth_error_repeat; exact Hi.
    + intros [[L ->]|(_ & a' & [= <-] & L & H)].
      * cbn in L. subst expected. reflexivity.
      * f_equal. symmetry. apply RP; assumption.
  - destruct (Nat.eqb_spec (length p) expected) as [L|L]; cbn [negb].
    + split; [intros [= <-]; left; auto|]. intros [[_ ->]|(-> & a & -> & _)]; [reflexivity|discriminate].
    + split; [discriminate|]. intros [[L' _]|(-> & a & -> & _)]; [contradiction|discriminate].
Qed.
Print Assumptions C65_accepts.
(** everything else throws *)
Theorem C65_throws : forall {T : Type} {NT : Num T} (p : list T) (expected : nat) (apply_first : bool),
  check_parameter_size p expected apply_first = Thrown <-> length p <> expected /\ (apply_first = false \/ length p <> 1%nat).
Proof.
  intros T NT p expected apply_first. unfold check_parameter_size. destruct apply_first; cbn [andb].
  - destruct (Nat.eqb_spec (length p) 1) as [E|E].
    + split; [discriminate|]. intros [_ [F|F]]; [discriminate|contradiction].
    + destruct (Nat.eqb_spec (length p) expected); cbn [negb]; split; try discriminate; auto. intros [F _]; contradiction.
  - destruct (Nat.eqb_spec (length p) expected); cbn [negb]; split; try discriminate; auto. intros [F _]; contradiction.
Qed.
Print Assumptions C65_throws.
Example C65_ex : check_parameter_size [2%R] 3 true = Done [2; 2; 2]%R /\ check_parameter_size [2; 3]%R 3 true = Thrown /\
  check_parameter_size [2%R] 3 false = Thrown /\ check_parameter_size [2; 3; 4]%R 3 true = Done [2; 3; 4]%R.
Proof. cbn. auto. Qed.

(** ** C61 *)
(** the requested range: a step near the end is moved so that the difference fits behind it, a negative last
    step means the last one *)
Definition wanted_first (o : order) (n first : Z) : Z := Z.min first (n - 1 - steps o).
Definition wanted_last (n last : Z) : Z := if last <? 0 then n - 1 else Z.min last (n - 1).
(** the ranges for which it works *)
Definition covered (o : order) (n a b : Z) : Prop :=
  match o with
  | Pos | Vel => True
  | Acc => Z.abs (b - a) <> 1
  | Jerk => a = b /\ a + 4 < n \/ 3 <= Z.abs (b - a)
  end.
Theorem C61_ranges : forall (o : order) (n first last : Z),
  steps o < n -> 0 <= first ->
  let a := wanted_first o n first in let b := wanted_last n last in let r := hatch_range o n first last in
  fst r = Z.min a b /\
  snd r = (if a =? b then a + match o with Pos => 0 | Vel => 1 | Acc => 2 | Jerk => 4 end else Z.max a b) /\
  (fits o n (fst r) (snd r) <-> covered o n a b).
Proof.
  intros o n first last Hn Hf a b r. subst a b r. unfold hatch_range, wanted_first, wanted_last, covered, fits.
  Ltac plain x := lazymatch x with context [if _ then _ else _] => fail | _ => idtac end.
  Ltac split_if := match goal with
    | |- context [?x <=? ?y] => plain x; plain y; destruct (Z.leb_spec x y)
    | |- context [?x <? ?y] => plain x; plain y; destruct (Z.ltb_spec x y)
    | |- context [?x =? ?y] => plain x; plain y; destruct (Z.eqb_spec x y) end; cbn [fst snd].
  destruct o; cbn [steps] in *; cbv zeta; repeat split_if; try lia; try (split; [lia|split; [lia|lia]]).
Qed.
Print Assumptions C61_ranges.

Lemma omap_none {A B} (f : A -> option B) l a : In a l -> f a = None -> omap f l = None.
Proof.
  induction l as [|x l IH]; intros Hi E; [contradiction|]. destruct Hi as [->|Hi]; cbn; [rewrite E; reflexivity|].
  destruct (f x); [|reflexivity]. cbn. rewrite IH; auto.
Qed.
Lemma diff_none {T} {NT : Num T} o vars (targets : list T) i j s : 0 <= s <= steps o -> at_ vars (i + s) j = None -> diff_expr o vars targets i j = None.
Proof.
  intros Hs E. unfold diff_expr.
  assert (C : s = 0 \/ s = 1 \/ s = 2 \/ s = 3) by (destruct o; cbn in Hs; lia).
  destruct o; cbn [steps] in Hs; cbn [stencil fold_left fst snd]; destruct C as [C|[C|[C|C]]]; try lia; subst s;
    repeat match goal with |- context [at_ vars (i + ?k) j] => destruct (at_ vars (i + k) j) eqn:?; cbn [obnd] end; try reflexivity; congruence.
Qed.

(** constructing the term succeeds exactly when the range fits *)
Theorem C61_constructs : forall {T : Type} {NT : Num T} (equality : bool) (o : order) (vars : array nat) (m n : Z) (f : Z -> Z -> nat)
    (c t u l : list T) (first last : Z),
  cells vars m n f -> 1 <= n -> is_int first -> first <= last <= m ->
  (constructs equality o vars c t u l first last = true <-> fits o m first last).
Proof.
  intros T NT equality o vars m n f c t u l first last Hc Hn Hi Hl.
  assert (Hcs := Hc). destruct Hcs as (Hr & Hcol & _ & Hm & Hn' & Hat).
  assert (RS : reach o = steps o) by (destruct o; reflexivity).
  assert (Key : forall A (h : Z -> Z -> option A),
            (forall i j, 0 <= i -> i + steps o < m -> 0 <= j < n -> h i j <> None) ->
            (forall i j, diff_expr o vars t i j = None -> h i j = None) ->
            (over_steps o vars first last h <> None <-> fits o m first last)).
  { intros A h Hok Hno. unfold over_steps. rewrite RS, Hcol.
    assert (TS : too_short o first last = false <-> first + steps o <= last).
    { unfold too_short. rewrite RS. destruct o; cbn [steps]; try (rewrite Z.ltb_ge; lia). split; [lia|reflexivity]. }
    destruct (too_short o first last); [split; [congruence|unfold fits; intros F; assert (first + steps o <= last) by tauto; apply TS in H; discriminate]|].
    assert (Hlen := proj1 TS eq_refl). clear TS.
    split.
    - intros H. unfold fits. destruct (Z.leb_spec 0 first) as [F0|F0]; [destruct (Z.ltb_spec last m) as [F1|F1]; [auto|]|].
      + exfalso. apply H. rewrite (omap_none _ _ (last - steps o)); [reflexivity|apply in_range; destruct o; cbn [steps] in *; lia|].
        apply (omap_none _ _ 0); [apply in_range; lia|]. apply Hno. apply (diff_none _ _ _ _ _ (steps o)); [destruct o; cbn; lia|].
        apply (C55_at_throws vars m n _ 0 f Hc); [unfold is_int in *; lia|unfold is_int; lia|]. right. replace last with m by lia. nia.
      + exfalso. apply H. rewrite (omap_none _ _ first); [reflexivity|apply in_range; destruct o; cbn [steps] in *; lia|].
        apply (omap_none _ _ 0); [apply in_range; lia|]. apply Hno. apply (diff_none _ _ _ _ _ 0); [destruct o; cbn; lia|].
        apply (C55_at_throws vars m n _ 0 f Hc); [unfold is_int in *; lia|unfold is_int; lia|]. left. nia.
    - intros (F0 & _ & F1).
      assert (G : forall k, first <= k < first + (last - steps o - first + 1) -> exists b, omap (h k) (range 0 n) = Some b).
      { intros k Hk. clear -Hk Hok F0 F1 Hn.
        assert (G : forall js, (forall j, In j js -> 0 <= j < n) -> exists b, omap (h k) js = Some b).
        { induction js as [|j js IH]; intros Hj; [exists []; reflexivity|]. cbn. destruct (h k j) eqn:E; [|exfalso; apply (Hok k j); auto; [lia|lia|apply Hj; left; auto]].
          destruct IH as (b & ->); [intros; apply Hj; right; auto|]. eexists; reflexivity. }
        apply G. intros j Hj. apply in_range in Hj. lia. }
      assert (G2 : forall ks, (forall k, In k ks -> first <= k < first + (last - steps o - first + 1)) -> exists b, omap (fun i => omap (h i) (range 0 n)) ks = Some b).
      { induction ks as [|k ks IH]; intros Hk; [exists []; reflexivity|]. cbn. destruct (G k) as (b & ->); [apply Hk; left; auto|].
        destruct IH as (b' & ->); [intros; apply Hk; right; auto|]. eexists; reflexivity. }
      destruct (G2 (range first (last - steps o - first + 1))) as (b & ->); [intros k Hk; apply in_range in Hk; lia|]. discriminate. }
  assert (DE : forall i j, 0 <= i -> i + steps o < m -> 0 <= j < n -> exists e, diff_expr o vars t i j = Some e).
  { intros i j H1 H2 H3. unfold diff_expr. destruct o; cbn [steps] in H2; cbn [stencil fold_left fst snd]; rewrite !Hat by lia; eexists; reflexivity. }
  unfold constructs. destruct equality.
  - rewrite <- (Key _ (fun i j => obnd (diff_expr o vars t i j) (fun e => Some (aff_scale e (coef c j))))).
    + unfold eq_exprs. destruct (over_steps _ _ _ _ _); split; congruence.
    + intros i j H1 H2 H3. destruct (DE i j H1 H2 H3) as (e & ->). discriminate.
    + intros i j ->. reflexivity.
  - rewrite <- (Key _ (fun i j => obnd (diff_expr o vars t i j) (fun e => Some (ineq_pair o (coef c j) (coef u j) (coef l j) e)))).
    + unfold ineq_exprs. destruct (over_steps _ _ _ _ _); cbn [obnd]; split; congruence.
    + intros i j H1 H2 H3. destruct (DE i j H1 H2 H3) as (e & ->). discriminate.
    + intros i j ->. reflexivity.
Qed.
Print Assumptions C61_constructs.

(** C61 as stated is false: acceleration over two steps, jerk over one to three, and any negative first step *)
Definition term (o : order) (ty first last : Z) : jterm R :=
  {| jt_type := ty; jt_coeffs := []; jt_targets := [0%R]; jt_uppers := []; jt_lowers := []; jt_first := first; jt_last := last |}.
Theorem C61_refuted : exists (vars : array nat),
  cells vars 6 1 (fun i j => Z.to_nat (i + j)) /\
  hatch_joint Acc (term Acc TT_COST 0 1) 1 vars = Thrown /\ hatch_joint Acc (term Acc TT_CNT 3 4) 1 vars = Thrown /\
  hatch_joint Jerk (term Jerk TT_COST 2 2) 1 vars = Thrown /\ hatch_joint Jerk (term Jerk TT_COST 0 2) 1 vars = Thrown /\
  hatch_joint Vel (term Vel TT_COST (-1) (-1)) 1 vars = Assert /\ hatch_joint Pos (term Pos TT_COST (-1) (-1)) 1 vars = Thrown /\
  hatch_joint Jerk (term Jerk TT_COST (-1) (-1)) 1 vars = Thrown.
Proof.
  exists (of_data 6 1 (seq 0 6)).
  assert (C : cells (of_data 6 1 (seq 0 6)) 6 1 (fun i j => Z.to_nat (i * 1 + j))) by (apply of_seq_cells; try lia; reflexivity).
  split. { destruct C as (A & B & D & E & F & G). repeat split; auto; try lia. intros i j Hi Hj. rewrite G by assumption. do 2 f_equal. lia. }
  assert (Key : forall o ty f l g h, o <> Vel -> hatch_range o 6 f l = (g, h) -> (ty = TT_COST \/ ty = TT_CNT) -> g <= h <= 6 -> is_int g -> ~ fits o 6 g h ->
            hatch_joint o (term o ty f l) 1 (of_data 6 1 (seq 0 6)) = Thrown).
  { intros o ty f l g h Ho Hr Hty Hgh Hi Hn. unfold hatch_joint. cbn [term jt_first jt_last jt_type]. change (r_rows (of_data 6 1 (seq 0 6))) with 6. rewrite Hr.
    assert (Eb : block 0%nat (of_data 6 1 (seq 0 6)) 0 0 6 1 = Some (of_data 6 1 (seq 0 6))) by (vm_compute; reflexivity).
    assert (J : forall s (p : list R * list R * list R * list R), add_joint s o (of_data 6 1 (seq 0 6)) p g h = Thrown).
    { intros s [[[c' t'] u'] l']. unfold add_joint. destruct (constructs _ _ _ _ _ _ _ _ _) eqn:E; [|reflexivity].
      apply (C61_constructs _ o _ 6 1 _ _ _ _ _ g h C) in E; try lia; [contradiction|assumption]. }
    unfold hatch_params. cbn [term jt_coeffs jt_targets jt_uppers jt_lowers default_to check_parameter_size repeat length Nat.eqb andb rdo Z.of_nat Pos.of_succ_nat].
    change (nth 0 [0%R] nzero) with 0%R.
    destruct o; try congruence; rewrite Eb; cbn [lift rdo]; destruct Hty as [-> | ->]; cbn [has TT_COST TT_CNT TT_USE_TIME Z.land Z.lor Z.eqb Pos.eqb Pos.land Pos.lor negb andb Pos.Nsucc_double Pos.Ndouble Z.of_N]; apply J. }
  repeat split.
  - apply (Key Acc TT_COST 0 1 0 1); try congruence; auto; try (unfold is_int; lia); unfold fits; cbn; lia.
  - apply (Key Acc TT_CNT 3 4 3 4); try congruence; auto; try (unfold is_int; lia); unfold fits; cbn; lia.
  - apply (Key Jerk TT_COST 2 2 2 6); try congruence; auto; try (unfold is_int; lia); unfold fits; cbn; lia.
  - apply (Key Jerk TT_COST 0 2 0 2); try congruence; auto; try (unfold is_int; lia); unfold fits; cbn; lia.
  - apply (Key Pos TT_COST (-1) (-1) (-1) 5); try congruence; auto; try (unfold is_int; lia); unfold fits; cbn; lia.
  - apply (Key Jerk TT_COST (-1) (-1) (-1) 5); try congruence; auto; try (unfold is_int; lia); unfold fits; cbn; lia.
Qed.
Print Assumptions C61_refuted.

(** ** C94: what hatching a joint term adds *)
(** one value per joint: the default for no value, the same for a single one *)
Definition per_joint (n : nat) (default : R) (l : list R) : list R := match l with [] => repeat default n | [a] => repeat a n | _ => l end.
Definition size_ok (n : nat) (l : list R) : Prop := length l = 0%nat \/ length l = 1%nat \/ length l = n.
Definition params_ok (t : jterm R) (n : nat) : Prop :=
  size_ok n (jt_coeffs t) /\ (length (jt_targets t) = 1%nat \/ length (jt_targets t) = n) /\ size_ok n (jt_uppers t) /\ size_ok n (jt_lowers t).
(** both tolerances of every joint count as zero *)
Definition exact (t : jterm R) (n : nat) : Prop :=
  forall v, In v (per_joint n 0 (jt_uppers t) ++ per_joint n 0 (jt_lowers t)) -> (Rabs v < / 100000)%R.

Lemma size_param n d (l : list R) : size_ok n l -> check_parameter_size (default_to l (repeat d n)) n true = Done (per_joint n d l).
Proof.
  intros H. apply C65_accepts. destruct l as [|a [|b l]]; cbn [default_to per_joint].
  - left. rewrite repeat_length. auto.
  - right. split; [reflexivity|]. exists a. split; [reflexivity|]. split; [apply repeat_length|]. intros; apply nth_error_repeat; assumption.
  - left. split; [|reflexivity]. destruct H as [H|[H|H]]; cbn in *; lia.
Qed.
Lemma size_target n (l : list R) : (length l = 1%nat \/ length l = n) -> (1 <= n)%nat -> check_parameter_size l n true = Done (per_joint n 0 l).
Proof.
  intros H Hn. apply C65_accepts. destruct l as [|a [|b l]]; cbn [per_joint].
  - cbn in H; lia.
  - right. split; [reflexivity|]. exists a. split; [reflexivity|]. split; [apply repeat_length|]. intros; apply nth_error_repeat; assumption.
  - left. split; [|reflexivity]. destruct H as [H|H]; cbn in *; lia.
Qed.
Lemma per_joint_length n d l : size_ok n l -> length (per_joint n d l) = n.
Proof. intros H. destruct l as [|a [|b l]]; cbn [per_joint]; try apply repeat_length. destruct H as [H|[H|H]]; cbn in *; lia. Qed.

(** the parameters hatch() uses; any other size throws *)
Theorem C94_parameters : forall (t : jterm R) (n : nat), (1 <= n)%nat ->
  (params_ok t n -> hatch_params t n = Done (per_joint n 1 (jt_coeffs t), per_joint n 0 (jt_targets t), per_joint n 0 (jt_uppers t), per_joint n 0 (jt_lowers t))) /\
  (~ params_ok t n -> hatch_params t n = Thrown).
Proof.
  intros t n Hn. split.
  - intros (Hc & Ht & Hu & Hl). unfold hatch_params. change none_ with 1%R. change nzero with 0%R.
    rewrite (size_param n 1 _ Hc), (size_target n _ Ht Hn), (size_param n 0 _ Hu), (size_param n 0 _ Hl). reflexivity.
  - intros H. unfold hatch_params.
    assert (S1 : forall d l, {size_ok n l} + {~ size_ok n l /\ check_parameter_size (default_to l (repeat d n)) n true = Thrown}).
    { intros d l. destruct (Nat.eq_dec (length l) 0) as [E|E]; [left; left; exact E|]. destruct (Nat.eq_dec (length l) 1) as [E1|E1]; [left; right; left; exact E1|].
      destruct (Nat.eq_dec (length l) n) as [E2|E2]; [left; right; right; exact E2|]. right. split; [unfold size_ok; lia|].
      apply C65_throws. destruct l; [contradiction|]. cbn [default_to]. auto. }
    destruct (S1 none_ (jt_coeffs t)) as [Hc|[_ ->]]; [|reflexivity]. rewrite (size_param n none_ _ Hc). cbn [rdo].
    destruct (Nat.eq_dec (length (jt_targets t)) 1) as [E|E].
    2:{ destruct (Nat.eq_dec (length (jt_targets t)) n) as [E2|E2].
        2:{ rewrite (proj2 (C65_throws (jt_targets t) n true)); [reflexivity|auto]. }
        rewrite (size_target n _ (or_intror E2) Hn). cbn [rdo].
        destruct (S1 nzero (jt_uppers t)) as [Hu|[_ ->]]; [|reflexivity]. rewrite (size_param n nzero _ Hu). cbn [rdo].
        destruct (S1 nzero (jt_lowers t)) as [Hl|[_ ->]]; [|reflexivity]. exfalso. apply H. unfold params_ok. auto. }
    rewrite (size_target n _ (or_introl E) Hn). cbn [rdo].
    destruct (S1 nzero (jt_uppers t)) as [Hu|[_ ->]]; [|reflexivity]. rewrite (size_param n nzero _ Hu). cbn [rdo].
    destruct (S1 nzero (jt_lowers t)) as [Hl|[_ ->]]; [|reflexivity]. exfalso. apply H. unfold params_ok. auto.
Qed.
Print Assumptions C94_parameters.

Lemma zeros_spec (u l : list R) : all_zeros u && all_zeros l = true <-> forall v, In v (u ++ l) -> (Rabs v < / 100000)%R.
Proof.
  unfold all_zeros. rewrite andb_true_iff, !forallb_forall. setoid_rewrite in_app_iff.
  assert (D : forall v : R, double_equals v nzero = true <-> (Rabs v < / 100000)%R).
  { intros v. unfold double_equals. rnum. rewrite Rminus_0_r, Rltb_true. replace (Rdec 1 (-5)) with (/ 100000)%R by (unfold Rdec; change (Pos.to_nat 5) with 5%nat; simpl; field). reflexivity. }
  split.
  - intros [A B] v [Hv|Hv]; apply D; auto.
  - intros A. split; intros v Hv; apply D; apply A; auto.
Qed.

Definition first_used (o : order) (m : Z) (t : jterm R) : Z := Z.min (wanted_first o m (jt_first t)) (wanted_last m (jt_last t)).
Definition last_used (o : order) (m : Z) (t : jterm R) : Z :=
  let a := wanted_first o m (jt_first t) in let b := wanted_last m (jt_last t) in
  if a =? b then a + match o with Pos => 0 | Vel => 1 | Acc => 2 | Jerk => 4 end else Z.max a b.

Lemma hatch_common o t m : steps o < m -> 0 <= jt_first t -> covered o m (wanted_first o m (jt_first t)) (wanted_last m (jt_last t)) ->
  hatch_range o m (jt_first t) (jt_last t) = (first_used o m t, last_used o m t) /\ fits o m (first_used o m t) (last_used o m t).
Proof.
  intros Hm Hf Hc. destruct (C61_ranges o m (jt_first t) (jt_last t) Hm Hf) as (E1 & E2 & E3).
  destruct (hatch_range o m (jt_first t) (jt_last t)) as [a b] eqn:E. cbn [fst snd] in *. unfold first_used, last_used. rewrite <- E1, <- E2. split; [reflexivity|]. apply E3, Hc.
Qed.

(** a term of type cost or constraint adds one object, of the equality class exactly when the tolerances
    count as zero, over the joint columns and the normalised range *)
Theorem C94_adds : forall (o : order) (t : jterm R) (d : nat) (vars : array nat) (m n : Z) (f : Z -> Z -> nat),
  cells vars m n f -> (1 <= d)%nat -> Z.of_nat d <= n -> steps o < m -> 0 <= jt_first t ->
  covered o m (wanted_first o m (jt_first t)) (wanted_last m (jt_last t)) -> params_ok t d ->
  forall s, (s = SideCost /\ jt_type t = TT_COST \/ s = SideCnt /\ jt_type t = TT_CNT \/ o = Pos /\ s = SideCost /\ has (jt_type t) TT_COST = true) ->
  exists jv e,
    hatch_joint o t d vars = Done [AddJoint s e o jv (per_joint d 1 (jt_coeffs t)) (per_joint d 0 (jt_targets t)) (per_joint d 0 (jt_uppers t))
                                     (per_joint d 0 (jt_lowers t)) (first_used o m t) (last_used o m t)] /\
    cells jv m (Z.of_nat d) f /\ (e = true <-> exact t d).
Proof.
  intros o t d vars m n f Hc Hd Hdn Hm Hf Hcov Hp s Hs.
  destruct (hatch_common o t m Hm Hf Hcov) as (Er & Hfit).
  destruct (C55_block 0%nat vars m n f 0 0 m (Z.of_nat d) Hc) as (jv & Eb & Cj); try (unfold cells in Hc; lia).
  assert (Cj' : cells jv m (Z.of_nat d) f).
  { destruct Cj as (A & B & C & D & E & F). repeat split; auto; lia. }
  exists jv, (all_zeros (per_joint d 0 (jt_uppers t)) && all_zeros (per_joint d 0 (jt_lowers t))).
  split; [|split; [exact Cj'|apply zeros_spec]].
  unfold hatch_joint. rewrite (proj1 Hc), Er, (proj1 (C94_parameters t d Hd) Hp). cbn [rdo].
  assert (Hfl : 0 <= first_used o m t /\ first_used o m t + steps o <= last_used o m t < m) by (unfold fits in Hfit; lia).
  replace (match o with Vel => negb ((first_used o m t <? last_used o m t) && (0 <=? first_used o m t)) | _ => false end) with false.
  2:{ destruct o; try reflexivity. cbn [steps] in Hfl. destruct (Z.ltb_spec (first_used Vel m t) (last_used Vel m t)); [|lia]. destruct (Z.leb_spec 0 (first_used Vel m t)); [reflexivity|lia]. }
  rewrite Eb. cbn [lift rdo].
  assert (J : forall s, add_joint s o jv (per_joint d 1 (jt_coeffs t), per_joint d 0 (jt_targets t), per_joint d 0 (jt_uppers t), per_joint d 0 (jt_lowers t))
            (first_used o m t) (last_used o m t) =
          Done [AddJoint s (all_zeros (per_joint d 0 (jt_uppers t)) && all_zeros (per_joint d 0 (jt_lowers t))) o jv (per_joint d 1 (jt_coeffs t)) (per_joint d 0 (jt_targets t)) (per_joint d 0 (jt_uppers t))
                                     (per_joint d 0 (jt_lowers t)) (first_used o m t) (last_used o m t)]).
  { intros s'. unfold add_joint. rewrite (proj2 (C61_constructs (T := R) _ o jv m (Z.of_nat d) f _ _ _ _ (first_used o m t) (last_used o m t) Cj' ltac:(lia) ltac:(unfold is_int, cells in *; destruct o; cbn [steps] in *; lia) ltac:(destruct o; cbn [steps] in *; lia))); [reflexivity|exact Hfit]. }
  destruct Hs as [[-> ->]|[[-> ->]|(-> & -> & ->)]]; [| |apply J]; cbn [has TT_COST TT_CNT TT_USE_TIME Z.land Z.lor Z.eqb Pos.eqb Pos.land Pos.lor negb andb Pos.Nsucc_double Pos.Ndouble Z.of_N]; destruct o; apply J.
Qed.
Print Assumptions C94_adds.

(** the value of an added cost *)
Definition cost_of (a : added R) (x : list R) : outcome R :=
  match a with
  | AddJoint SideCost true o v c t _ _ first last => eq_cost_value o v c t first last x
  | AddJoint SideCost false o v c t u l first last => ineq_cost_value o v c t u l first last x
  | _ => Undef
  end.
(** C94: the cost a term of type cost adds is the documented sum over the steps of its range *)
Theorem C94_cost : forall (o : order) (t : jterm R) (d : nat) (vars : array nat) (m n : Z) (f : Z -> Z -> nat) (x : list R),
  cells vars m n f -> (1 <= d)%nat -> Z.of_nat d <= n -> steps o < m -> 0 <= jt_first t ->
  covered o m (wanted_first o m (jt_first t)) (wanted_last m (jt_last t)) -> params_ok t d -> jt_type t = TT_COST ->
  (forall i j, 0 <= i < m -> 0 <= j < Z.of_nat d -> (f i j < length x)%nat) ->
  exists a v, hatch_joint o t d vars = Done [a] /\ cost_of a x = Ok v /\
  let dev i j := deviation o f (per_joint d 0 (jt_targets t)) x i j in
  let c j := at_joint (per_joint d 1 (jt_coeffs t)) j in
  (exact t d -> v = over_cells o (first_used o m t) (last_used o m t) (Z.of_nat d) (fun i j => c j * (dev i j * dev i j))%R) /\
  (~ exact t d -> v = over_cells o (first_used o m t) (last_used o m t) (Z.of_nat d) (fun i j =>
      Rmax (c j * (dev i j - at_joint (per_joint d 0 (jt_uppers t)) j)) 0 + Rmax (c j * (at_joint (per_joint d 0 (jt_lowers t)) j - dev i j)) 0)%R).
Proof.
  intros o t d vars m n f x Hc Hd Hdn Hm Hf Hcov Hp Hty Hin.
  destruct (C94_adds o t d vars m n f Hc Hd Hdn Hm Hf Hcov Hp SideCost (or_introl (conj eq_refl Hty))) as (jv & e & E & Cj & He).
  destruct (hatch_common o t m Hm Hf Hcov) as (_ & Hfit). destruct Hp as (Sc & St & Su & Sl).
  assert (L : forall d0 l, size_ok d l -> sized (Z.of_nat d) (per_joint d d0 l)) by (intros d0 l S0; unfold sized; rewrite (per_joint_length d d0 l S0); reflexivity).
  assert (St' : size_ok d (jt_targets t)) by (unfold size_ok; tauto).
  pose (mdl := repeat (@None R, @None R) (length x)).
  assert (Hin' : forall i j, 0 <= i < m -> 0 <= j < Z.of_nat d -> (f i j < length mdl)%nat) by (intros; unfold mdl; rewrite repeat_length; auto).
  assert (Lx : length x = length mdl) by (unfold mdl; rewrite repeat_length; reflexivity).
  destruct e.
  - destruct (C59_eq_costs o jv m (Z.of_nat d) f (first_used o m t) (last_used o m t) _ _ mdl Cj Hfit (L 1%R _ Sc) (L 0%R _ St') Hin') as (q & _ & V).
    destruct (V x Lx) as (v & Ev & Hv & _). do 2 eexists. split; [exact E|]. split; [exact Ev|]. cbv zeta. split; [intros _; exact Hv|]. intros N. exfalso. apply N. apply He. reflexivity.
  - destruct (C59_ineq_costs o jv m (Z.of_nat d) f (first_used o m t) (last_used o m t) _ _ _ _ mdl Cj Hfit (L 1%R _ Sc) (L 0%R _ St') (L 0%R _ Su) (L 0%R _ Sl) Hin') as (q & _ & V).
    destruct (V x Lx) as (v & Ev & Hv & _). do 2 eexists. split; [exact E|]. split; [exact Ev|]. cbv zeta. split; [intros N; apply He in N; discriminate|]. intros _. exact Hv.
Qed.
Print Assumptions C94_cost.

(** C94: a velocity term using time adds one object per joint, over that joint and the times of the range *)
Theorem C94_time : forall (t : jterm R) (d : nat) (vars : array nat) (m : Z) (f : Z -> Z -> nat),
  cells vars m (Z.of_nat d + 1) f -> (1 <= d)%nat -> 1 < m -> 0 <= jt_first t -> params_ok t d ->
  forall s, (s = SideCost /\ jt_type t = TT_COST + TT_USE_TIME \/ s = SideCnt /\ jt_type t = TT_CNT + TT_USE_TIME) ->
  exists l e, hatch_joint Vel t d vars = Done l /\ length l = d /\ (e = true <-> exact t d) /\
  forall j, (j < d)%nat ->
    let first := first_used Vel m t in let last := last_used Vel m t in
    let column c := map (fun k => f (first + Z.of_nat k) c) (seq 0 (Z.to_nat (last - first + 1))) in
    let of_joint v := at_joint v (Z.of_nat j) in
    0 <= first < last /\ last < m /\
    nth_error l j = Some (AddVelTime s e j (of_joint (per_joint d 0 (jt_targets t))) (of_joint (per_joint d 0 (jt_uppers t))) (of_joint (per_joint d 0 (jt_lowers t)))
      (column (Z.of_nat j) ++ column (Z.of_nat d)) (repeat (of_joint (per_joint d 1 (jt_coeffs t))) (2 * Z.to_nat (last - first)))).
Proof.
  intros t d vars m f Hc Hd Hm Hf Hp s Hs.
  destruct (hatch_common Vel t m Hm Hf I) as (Er & Hfit). unfold fits in Hfit. cbn [steps] in Hfit.
  destruct (C55_block 0%nat vars m (Z.of_nat d + 1) f 0 0 m (Z.of_nat d) Hc) as (jv & Eb & Cj); try (unfold cells in Hc; lia).
  set (a := first_used Vel m t) in *. set (b := last_used Vel m t) in *.
  set (e := all_zeros (per_joint d 0 (jt_uppers t)) && all_zeros (per_joint d 0 (jt_lowers t))).
  assert (CB : forall v mm nn (g : Z -> Z -> nat) j, cells v mm nn g -> 0 <= j < nn -> b < mm -> cblock v a j (b - a + 1) = Some (map (fun k => g (a + Z.of_nat k) j) (seq 0 (Z.to_nat (b - a + 1))))).
  { intros v mm nn g j (V1 & V2 & V3 & V4 & V5 & V6) Hj Hb. unfold cblock. destruct (Z.ltb_spec (b - a + 1) 0); [lia|].
    rewrite (collect_spec _ _ (fun i => g (a + i) j)).
    - f_equal. unfold range. rewrite map_map. apply map_ext_in. intros k Hk. reflexivity.
    - intros i Hi. apply in_range in Hi. rewrite Z.add_comm, V6 by lia. reflexivity. }
  assert (R : add_vel_time s vars jv d (per_joint d 1 (jt_coeffs t), per_joint d 0 (jt_targets t), per_joint d 0 (jt_uppers t), per_joint d 0 (jt_lowers t)) a b =
    Done (map (fun j => AddVelTime s e j (nth j (per_joint d 0 (jt_targets t)) 0%R) (nth j (per_joint d 0 (jt_uppers t)) 0%R) (nth j (per_joint d 0 (jt_lowers t)) 0%R)
       (map (fun k => f (a + Z.of_nat k) (Z.of_nat j)) (seq 0 (Z.to_nat (b - a + 1))) ++ map (fun k => f (a + Z.of_nat k) (Z.of_nat d)) (seq 0 (Z.to_nat (b - a + 1))))
       (repeat (nth j (per_joint d 1 (jt_coeffs t)) 0%R) (Z.to_nat (b - a) * 2))) (seq 0 d))).
  { unfold add_vel_time. fold e. rewrite (proj1 (proj2 Hc)).
    assert (G : forall js, (forall j, In j js -> (j < d)%nat) ->
      rmap (fun j => rdo (lift (cblock jv a (Z.of_nat j) (b - a + 1))) (fun jvec => rdo (lift (cblock vars a (Z.of_nat d + 1 - 1) (b - a + 1))) (fun tvec =>
         Done (AddVelTime s e j (nth j (per_joint d 0 (jt_targets t)) nzero) (nth j (per_joint d 0 (jt_uppers t)) nzero) (nth j (per_joint d 0 (jt_lowers t)) nzero) (jvec ++ tvec)
            (repeat (nth j (per_joint d 1 (jt_coeffs t)) nzero) (Z.to_nat (b - a) * 2)))))) js =
      Done (map (fun j => AddVelTime s e j (nth j (per_joint d 0 (jt_targets t)) 0%R) (nth j (per_joint d 0 (jt_uppers t)) 0%R) (nth j (per_joint d 0 (jt_lowers t)) 0%R)
       (map (fun k => f (a + Z.of_nat k) (Z.of_nat j)) (seq 0 (Z.to_nat (b - a + 1))) ++ map (fun k => f (a + Z.of_nat k) (Z.of_nat d)) (seq 0 (Z.to_nat (b - a + 1))))
       (repeat (nth j (per_joint d 1 (jt_coeffs t)) 0%R) (Z.to_nat (b - a) * 2))) js)).
    { induction js as [|j js IH]; intros Hj; [reflexivity|]. cbn [rmap].
      rewrite IH by (intros; apply Hj; right; assumption).
      rewrite (CB jv m (Z.of_nat d) _ (Z.of_nat j) Cj) by (specialize (Hj j (or_introl eq_refl)); lia). cbn [lift rdo].
      rewrite (CB vars m (Z.of_nat d + 1) f (Z.of_nat d + 1 - 1) Hc) by lia. cbn [lift rdo map]. replace (Z.of_nat d + 1 - 1) with (Z.of_nat d) by lia. reflexivity. }
    apply G. intros j Hj. apply in_seq in Hj. lia. }
  do 2 eexists. split; [|split; [|split]].
  - unfold hatch_joint. rewrite (proj1 Hc), Er, (proj1 (C94_parameters t d Hd) Hp). cbn [rdo].
    destruct (Z.ltb_spec a b); [|lia]. destruct (Z.leb_spec 0 a); [|lia]. cbn [andb negb]. rewrite Eb. cbn [lift rdo].
    destruct Hs as [[-> ->]|[-> ->]]; cbn [has TT_COST TT_CNT TT_USE_TIME Z.land Z.lor Z.add Pos.add Pos.succ Z.eqb Pos.eqb Pos.land Pos.lor negb andb Pos.Nsucc_double Pos.Ndouble Z.of_N]; apply R.
  - rewrite map_length, seq_length. reflexivity.
  - apply (zeros_spec (per_joint d 0 (jt_uppers t))).
  - intros j Hj. cbv zeta. split; [lia|]. split; [lia|]. rewrite nth_error_map, (nth_error_nth' _ 0%nat) by (rewrite seq_length; exact Hj). rewrite seq_nth by exact Hj. cbn [option_map Nat.add].
    unfold at_joint. rewrite Nat2Z.id. rewrite (Nat.mul_comm 2). reflexivity.
Qed.
Print Assumptions C94_time.

(** a term marked as cost, constraint and time adds nothing, although ConstructProblem accepts it; one marked
    as cost and constraint adds only the cost *)
Theorem C94_both_refuted : exists (vars : array nat) (t t' : jterm R) e jv,
  check_time [{| ti_type := jt_type t; ti_supported := 7 |}] [] true = Some tt /\
  has (jt_type t) TT_COST = true /\ hatch_joint Vel t 1 vars = Done [] /\
  has (jt_type t') TT_CNT = true /\ hatch_joint Pos t' 1 vars = Done [AddJoint SideCost e Pos jv [1%R] [0%R] [0%R] [0%R] 0 2].
Proof.
  pose (vars := of_data 3 2 (seq 0 6)).
  assert (C : cells vars 3 2 (fun i j => Z.to_nat (i * 2 + j))) by (apply of_seq_cells; try lia; reflexivity).
  destruct (C94_adds Pos (term Pos TT_COST 0 2) 1 vars 3 2 _ C ltac:(lia) ltac:(lia) ltac:(cbn; lia) ltac:(cbn; lia) I) with (s := SideCost) as (jv & e & E & _).
  { unfold params_ok, size_ok. cbn. lia. } { left. split; reflexivity. }
  exists vars, (term Vel 7 0 2), (term Pos 3 0 2), e, jv. split; [reflexivity|]. split; [reflexivity|]. split; [|split; [reflexivity|]].
  - unfold hatch_joint. rewrite (proj1 (C94_parameters (term Vel 7 0 2) 1 ltac:(lia))) by (unfold params_ok, size_ok; cbn; lia). vm_compute block. reflexivity.
  - exact E.
Qed.
Print Assumptions C94_both_refuted.

Example C94_ex : let vars := of_data 3 2 (seq 0 6) in let t := {| jt_type := TT_COST; jt_coeffs := [2%R]; jt_targets := [0%R]; jt_uppers := []; jt_lowers := []; jt_first := 0; jt_last := -1 |} in
  exists a v, hatch_joint Vel t 2 vars = Done [a] /\ cost_of a [0; 0; 1; 0; 3; 1]%R = Ok v /\ (v = 12)%R.
Proof.
  intros vars t.
  assert (C : cells vars 3 2 (fun i j => Z.to_nat (i * 2 + j))) by (apply of_seq_cells; try lia; reflexivity).
  destruct (C94_cost Vel t 2 vars 3 2 _ [0; 0; 1; 0; 3; 1]%R C) as (a & v & E & Ev & Hv & _); try (cbn; lia).
  - unfold params_ok, size_ok. cbn. lia.
  - exists a, v. split; [exact E|]. split; [exact Ev|]. rewrite Hv.
    + unfold over_cells. change (Z.to_nat (last_used Vel 3 t - steps Vel - first_used Vel 3 t + 1)) with 2%nat. change (Z.to_nat (Z.of_nat 2)) with 2%nat.
      change (first_used Vel 3 t) with 0. rewrite !bigsum_S, !bigsum_0. unfold deviation, at_joint, difference. cbn. repeat match goal with |- context [Pos.to_nat ?p] => let v := eval compute in (Pos.to_nat p) in change (Pos.to_nat p) with v end. cbn. lra.
    + intros w. cbn. intros H. assert (w = 0%R) as -> by tauto || (destruct H as [<-|[<-|[<-|[<-|[]]]]]; reflexivity). rewrite Rabs_R0. lra.
Qed.
