(** * Cartesian position constraints of trajopt_ifopt (C101, C102) *)
From Coq Require Import ZArith List Bool Reals Lra Lia Arith.
From Verif Require Import Num NumFacts Common IfoptModel CollisionModel ModelingModel KinModel KinProofs IfCartModel.
Import ListNotations.
Local Open Scope R_scope.

(** a value within bounds; an infinite bound is absent *)
Definition within (b : bnd R) (v : R) : Prop :=
  (forall l, b_lo b = Some l -> l <= v) /\ (forall u, b_hi b = Some u -> v <= u).
(** coefficients of this size are taken to be zero *)
Definition negligible (c : R) : Prop := Rabs c <= 1 / 1000000.

Lemma almost_zero (c : R) : almost_equal c 0 = true <-> negligible c.
Proof.
  unfold almost_equal, negligible. rewrite nmax_R. rnum.
  replace (c - 0) with c by ring. rewrite Rabs_R0.
  replace (Rdec 1 (-6)) with (1 / 1000000) by (unfold Rdec; change (Pos.to_nat 6) with 6%nat; simpl; field).
  destruct (Rleb_spec (Rabs c) (1 / 1000000)) as [H | H]; [split; auto|].
  split; [|lra]. intros E. apply Rleb_true in E.
  rewrite Rmax_left in E by (apply Rabs_pos).
  assert (1 / IZR (2 ^ 52) <= 1 / 2).
  { change (2 ^ 52)%Z with 4503599627370496%Z. lra. }
  assert (0 < Rabs c) by lra. nra.
Qed.
Lemma negligible_dec c : {negligible c} + {~ negligible c}.
Proof. unfold negligible. destruct (Rle_dec (Rabs c) (1 / 1000000)); auto. Qed.

Section Rows.
  Variables (split : bool) (coeffs : list R) (bounds : list (bnd R)).
  Local Notation rows := (flat_map (component_rows split coeffs bounds) (seq 0 6)).

  Lemma row_in i c b : In (i, c, b) rows ->
    (i < 6)%nat /\ ~ negligible (nth i coeffs 0) /\ c = nth i coeffs 0 /\
    (b = nth i bounds unbounded \/ (split = true /\ type_of (nth i bounds unbounded) = RangeBound /\
       (b = lower_half (nth i bounds unbounded) \/ b = upper_half (nth i bounds unbounded)))) /\
    (split = true -> type_of b <> RangeBound).
  Proof.
    intros H. apply in_flat_map in H. destruct H as (j & Hj & H). apply in_seq in Hj.
    unfold component_rows in H. unfold el in H.
    destruct (almost_equal (nth j coeffs nzero) nzero) eqn:E; [contradiction|].
    assert (N : ~ negligible (nth j coeffs 0)).
    { intros K. apply almost_zero in K. change (@nzero R R_Num) with 0 in E. congruence. }
    change (@nzero R R_Num) with 0 in *. set (bj := nth j bounds unbounded) in *.
    destruct (split && is_range bj)%bool eqn:E2.
    - apply andb_true_iff in E2. destruct E2 as [-> E2]. unfold is_range in E2.
      assert (Ty : type_of bj = RangeBound) by (destruct (type_of bj); auto; discriminate).
      cbn in H. destruct H as [H | [H | []]]; injection H as <- <- <-; fold bj; (split; [lia|]);
        (split; [auto|]); (split; [reflexivity|]); (split; [right; auto|]); intros _;
        unfold type_of, lower_half, upper_half; cbn; destruct (b_lo bj); destruct (b_hi bj); discriminate.
    - destruct H as [H | []]. injection H as <- <- <-. fold bj. split; [lia|]. split; [auto|]. split; [reflexivity|].
      split; [auto|]. intros ->. unfold is_range in E2. destruct (type_of bj); cbn in E2; congruence.
  Qed.
  Lemma row_of i : (i < 6)%nat -> ~ negligible (nth i coeffs 0) ->
    (In (i, nth i coeffs 0, nth i bounds unbounded) rows) \/
    (In (i, nth i coeffs 0, lower_half (nth i bounds unbounded)) rows /\ In (i, nth i coeffs 0, upper_half (nth i bounds unbounded)) rows).
  Proof.
    intros Hi N. assert (E : almost_equal (nth i coeffs 0) 0 = false).
    { destruct (almost_equal (nth i coeffs 0) 0) eqn:E; auto. apply almost_zero in E. contradiction. }
    destruct (split && is_range (nth i bounds unbounded))%bool eqn:E2.
    - right. split; apply in_flat_map; exists i; (split; [apply in_seq; lia|]); unfold component_rows, el;
        change (@nzero R R_Num) with 0; rewrite E, E2; cbn; auto.
    - left. apply in_flat_map; exists i; (split; [apply in_seq; lia|]); unfold component_rows, el;
        change (@nzero R R_Num) with 0; rewrite E, E2; cbn; auto.
  Qed.
  Lemma halves b v : within b v <-> within (lower_half b) v /\ within (upper_half b) v.
  Proof.
    unfold within, lower_half, upper_half. cbn. split.
    - intros [L U]. repeat split; auto; intros; discriminate.
    - intros [[L _] [_ U]]. split; auto.
  Qed.
  Lemma rows_length : (length rows <= 12)%nat.
  Proof.
    assert (K : forall l, (length (flat_map (component_rows split coeffs bounds) l) <= 2 * length l)%nat).
    { induction l as [|i l IH]; [auto|]. cbn [flat_map length]. rewrite app_length.
      assert ((length (component_rows split coeffs bounds i) <= 2)%nat); [|lia].
      unfold component_rows. destruct almost_equal; [cbn; lia|]. destruct andb; cbn; lia. }
    apply (K (seq 0 6)).
  Qed.
End Rows.

Lemma Forall2_map_iff {A B C} (P : B -> C -> Prop) (f : A -> B) (g : A -> C) l :
  Forall2 P (map f l) (map g l) <-> forall a, In a l -> P (f a) (g a).
Proof.
  induction l as [|a l IH]; cbn; [split; [contradiction|constructor]|]. split.
  - intros H b [<- | Hb]; inversion H; subst; auto. apply IH; auto.
  - intros H. constructor; auto. apply IH. auto.
Qed.

Lemma new_inv dof hs ht sa ta split (coeffs : list R) bounds c : cartpos_new dof hs ht sa ta split coeffs bounds = Val c ->
  (dof <> 0)%nat /\ hs = true /\ ht = true /\ length bounds = 6%nat /\ length coeffs = 6%nat /\ (ta || sa)%bool = true /\
  let l := flat_map (component_rows split coeffs bounds) (seq 0 6) in
  c = {| cp_type := if ta && sa then BothActive else if ta then TargetActive else SourceActive;
         cp_dof := dof; cp_indices := map (fun p => fst (fst p)) l; cp_coeffs := map (fun p => snd (fst p)) l;
         cp_bounds := map snd l |}.
Proof.
  unfold cartpos_new. destruct (Nat.eqb_spec dof 0); [discriminate|]. destruct hs, ht; try discriminate. cbn [negb].
  destruct (Nat.eqb_spec (length bounds) 6); [|discriminate]. destruct (Nat.eqb_spec (length coeffs) 6); [|discriminate].
  cbn [negb]. destruct (ta || sa)%bool eqn:E; [|discriminate]. cbn [negb]. intros K. injection K as <-.
  repeat split; auto.
Qed.

(** C101: the constructor succeeds exactly for a group with joints, two known links of which one moves, six bounds
    and six coefficients *)
Theorem C101_accepts : forall dof hs ht sa ta split (coeffs : list R) bounds,
  (exists c, cartpos_new dof hs ht sa ta split coeffs bounds = Val c) <->
  (dof <> 0)%nat /\ hs = true /\ ht = true /\ length bounds = 6%nat /\ length coeffs = 6%nat /\ (sa = true \/ ta = true).
Proof.
  intros. split.
  - intros [c H]. apply new_inv in H. destruct H as (H1 & H2 & H3 & H4 & H5 & H6 & _). repeat split; auto.
    apply orb_true_iff in H6. tauto.
  - intros (H1 & -> & -> & H4 & H5 & H6). unfold cartpos_new. destruct (Nat.eqb_spec dof 0); [contradiction|].
    rewrite H4, H5. cbn. assert ((ta || sa)%bool = true) as -> by (apply orb_true_iff; tauto). cbn. eauto.
Qed.
Print Assumptions C101_accepts.

(** C101: every row comes from a component whose coefficient is not negligible, with that coefficient; the rows,
    coefficients and bounds have the same number; no range bound is left when ranges are to be split *)
Theorem C101_rows : forall dof hs ht sa ta split (coeffs : list R) bounds c,
  cartpos_new dof hs ht sa ta split coeffs bounds = Val c ->
  length (cp_coeffs c) = length (cp_indices c) /\ length (cp_bounds c) = length (cp_indices c) /\
  (length (cp_indices c) <= 12)%nat /\ cp_dof c = dof /\
  (forall i, In i (cp_indices c) <-> (i < 6)%nat /\ ~ negligible (nth i coeffs 0)) /\
  (forall k, (k < length (cp_indices c))%nat -> nth k (cp_coeffs c) 0 = nth (nth k (cp_indices c) 0%nat) coeffs 0) /\
  (split = true -> forall b, In b (cp_bounds c) -> type_of b <> RangeBound) /\
  (split = false -> NoDup (cp_indices c)).
Proof.
  intros dof hs ht sa ta split coeffs bounds c H. apply new_inv in H. destruct H as (_ & _ & _ & _ & _ & _ & ->). cbn [cp_type cp_dof cp_indices cp_coeffs cp_bounds].
  set (l := flat_map (component_rows split coeffs bounds) (seq 0 6)). rewrite !map_length. split; [reflexivity|]. split; [reflexivity|].
  split; [apply rows_length|]. split; [reflexivity|]. split; [|split; [|split]].
  - intros i. rewrite in_map_iff. split.
    + intros ([[j x] b] & <- & Hin). apply row_in in Hin. cbn. tauto.
    + intros [Hi N]. destruct (row_of split coeffs bounds i Hi N) as [K | [K _]].
      * exists (i, nth i coeffs 0, nth i bounds unbounded). auto.
      * exists (i, nth i coeffs 0, lower_half (nth i bounds unbounded)). auto.
  - intros k Hk. set (d := (0%nat, 0, @unbounded R)).
    rewrite (nth_indep _ 0 (snd (fst d))) by (rewrite map_length; auto).
    rewrite (nth_indep _ 0%nat (fst (fst d))) by (rewrite map_length; auto).
    rewrite (map_nth (fun p => snd (fst p))), (map_nth (fun p => fst (fst p))).
    assert (Hin : In (nth k l d) l) by (apply nth_In; auto). destruct (nth k l d) as [[i x] b]. apply row_in in Hin. cbn. tauto.
  - intros Hs b Hb. apply in_map_iff in Hb. destruct Hb as ([[i x] b'] & <- & Hin). apply row_in in Hin. cbn. tauto.
  - intros ->. subst l.
    assert (K : forall n s, NoDup (map (fun p => fst (fst p)) (flat_map (component_rows false coeffs bounds) (seq s n)))).
    { induction n as [|n IH]; intros s; cbn [seq flat_map]; [constructor|]. rewrite map_app.
      unfold component_rows at 1. destruct almost_equal; cbn [app map]; [apply IH|]. cbn [andb app map fst].
      constructor; [|apply IH]. intros Hin. apply in_map_iff in Hin. destruct Hin as ([[i x] b] & Ei & Hin). cbn in Ei. subst i.
      apply in_flat_map in Hin. destruct Hin as (j & Hj & Hin). apply in_seq in Hj. unfold component_rows in Hin.
      destruct almost_equal in Hin; [contradiction|]. cbn in Hin. destruct Hin as [Hin | []]. injection Hin as Hin. lia. }
    apply K.
Qed.
Print Assumptions C101_rows.

Lemma select_ok (idx : list nat) (e : list R) : (forall i, In i idx -> (i < length e)%nat) -> select idx e = Val (map (fun i => nth i e 0) idx).
Proof.
  intros H. unfold select. assert (forallb (fun i => (i <? length e)%nat) idx = true) as ->.
  { apply forallb_forall. intros i Hi. apply Nat.ltb_lt. auto. }
  reflexivity.
Qed.

(** C101: the values are within the bounds of the constraint exactly when every component of the pose error whose
    coefficient is not negligible is within the bounds given for it, however ranges are handled *)
Theorem C101_bounds : forall {Tf} (source target : list R -> Tf) (transform_error : Tf -> Tf -> list R)
    dof hs ht sa ta split (coeffs : list R) bounds c q,
  cartpos_new dof hs ht sa ta split coeffs bounds = Val c ->
  (forall a b, length (transform_error a b) = 6%nat) ->
  exists v, cartpos_values source target transform_error c q = Val v /\ length v = length (cp_bounds c) /\
  let e := if ta && negb sa then transform_error (source q) (target q) else transform_error (target q) (source q) in
  (Forall2 within (cp_bounds c) v <->
   forall i, (i < 6)%nat -> ~ negligible (nth i coeffs 0) -> within (nth i bounds unbounded) (nth i e 0)).
Proof.
  intros Tf source target te dof hs ht sa ta split coeffs bounds c q H Hte.
  destruct (C101_rows _ _ _ _ _ _ _ _ _ H) as (_ & _ & _ & _ & Hidx & _).
  apply new_inv in H. destruct H as (_ & _ & _ & _ & _ & Hact & Hc).
  set (e := if ta && negb sa then te (source q) (target q) else te (target q) (source q)).
  assert (He : length e = 6%nat) by (unfold e; destruct (ta && negb sa)%bool; auto).
  assert (Hv : cartpos_values source target te c q = select (cp_indices c) e).
  { unfold cartpos_values, e. rewrite Hc. cbn. destruct ta, sa; reflexivity. }
  rewrite Hv, select_ok.
  2:{ intros i Hi. rewrite He. apply Hidx. auto. }
  eexists. split; [reflexivity|]. clear Hv. rewrite Hc in *. cbn [cp_type cp_dof cp_indices cp_coeffs cp_bounds] in *. set (l := flat_map (component_rows split coeffs bounds) (seq 0 6)) in *. rewrite !map_length. split; [reflexivity|].
  rewrite map_map. rewrite Forall2_map_iff. split.
  - intros F i Hi N. destruct (row_of split coeffs bounds i Hi N) as [K | [K1 K2]].
    + apply (F _ K).
    + apply halves. split; [apply (F _ K1) | apply (F _ K2)].
  - intros F [[i x] b] Hin. cbn. apply row_in in Hin. destruct Hin as (Hi & N & _ & Hb & _). specialize (F i Hi N).
    destruct Hb as [-> | (_ & _ & Hb)]; auto. apply halves in F. destruct Hb as [-> | ->]; tauto.
Qed.
Print Assumptions C101_bounds.

(** x between -1 and 1, z equal to 2, the other components without coefficient: three rows when split *)
Definition ex_coeffs : list R := [1; 0; 5; 0; 0; 0].
Definition ex_bounds : list (bnd R) :=
  [{| b_lo := Some (-1); b_hi := Some 1 |}; unbounded; {| b_lo := Some 2; b_hi := Some 2 |}; unbounded; unbounded; unbounded].
Lemma e8 : Rdec 1 (-8) = / 100000000.
Proof. unfold Rdec; change (Pos.to_nat 8) with 8%nat; simpl; field. Qed.
Lemma ex_range : type_of {| b_lo := Some (-1); b_hi := Some 1 |} = RangeBound.
Proof.
  unfold type_of. cbn [b_lo b_hi]. rnum. rewrite e8. destruct (Rltb_spec (Rabs (1 - -1)) (/ 100000000)) as [H | H]; [|reflexivity].
  rewrite Rabs_right in H by lra. lra.
Qed.
Lemma ex_equal : type_of {| b_lo := Some 2; b_hi := Some 2 |} = Equality.
Proof.
  unfold type_of. cbn [b_lo b_hi]. rnum. rewrite e8. destruct (Rltb_spec (Rabs (2 - 2)) (/ 100000000)) as [H | H]; [reflexivity|].
  replace (2 - 2) with 0 in H by ring. rewrite Rabs_R0 in H. lra.
Qed.
Lemma big (c : R) : 1 <= c -> almost_equal c 0 = false.
Proof. intros H. destruct (almost_equal c 0) eqn:E; auto. apply almost_zero in E. unfold negligible in E. rewrite Rabs_right in E; lra. Qed.
Lemma zero_zero : almost_equal (0 : R) 0 = true.
Proof. apply almost_zero. unfold negligible. rewrite Rabs_R0. lra. Qed.
Example C101_ex : exists c, cartpos_new 7 true true true false true ex_coeffs ex_bounds = Val c /\
  cp_type c = SourceActive /\ cp_indices c = [0; 0; 2]%nat /\ cp_coeffs c = [1; 1; 5] /\
  cp_bounds c = [{| b_lo := Some (-1); b_hi := None |}; {| b_lo := None; b_hi := Some 1 |}; {| b_lo := Some 2; b_hi := Some 2 |}].
Proof.
  eexists. split; [reflexivity|]. cbn [cp_type cp_indices cp_coeffs cp_bounds]. split; [reflexivity|].
  unfold ex_coeffs, ex_bounds. cbn [seq flat_map]. unfold component_rows, el. change (@nzero R R_Num) with 0. cbn [nth].
  rewrite zero_zero, !big by lra. unfold is_range. rewrite ex_range, ex_equal. cbn. auto.
Qed.

(** ** The Jacobian *)
Lemma diff_columns_ok (eps : R) (q : list R) (d : list R -> res (list R)) (e : list R -> list R) :
  (forall x, length x = length q -> d x = Val (e x)) ->
  forall k i, (i + k = length q)%nat ->
  diff_columns eps q q d i k = Val (map (fun j => map (fun v => v / eps) (e (upd q j (nth j q 0 + eps)))) (seq i k)).
Proof.
  intros Hd. induction k as [|k IH]; intros i Hi; [reflexivity|]. cbn [diff_columns seq map]. unfold el at 1.
  rewrite Hd by (rewrite upd_length; auto). cbn [rbind]. unfold el. rewrite upd_upd. change (@nzero R R_Num) with 0. rewrite upd_same.
  rewrite Nat.add_1_r, IH by lia. reflexivity.
Qed.
Lemma gather_ok {A B} (f : A -> res B) (g : A -> B) l : (forall a, In a l -> f a = Val (g a)) -> gather_rows f l = Val (map g l).
Proof. induction l as [|a l IH]; intros H; [reflexivity|]. cbn. rewrite H by (left; auto). cbn. rewrite IH by (intros; apply H; right; auto). reflexivity. Qed.
Lemma gather_inv {A B} (f : A -> res B) l bs : gather_rows f l = Val bs -> forall a, In a l -> exists b, f a = Val b.
Proof.
  revert bs; induction l as [|a l IH]; intros bs H x Hx; [contradiction|]. cbn in H.
  destruct (f a) eqn:E; try discriminate. cbn in H. destruct (gather_rows f l) eqn:E2; try discriminate.
  destruct Hx as [<- | Hx]; eauto.
Qed.
Lemma sparse_row_ok (index n : nat) (cols : list (list R)) r : (n <= length cols)%nat -> (forall c, In c cols -> (r < length c)%nat) ->
  sparse_row index n cols r = Val (map (fun j => ((index + j)%nat, nth r (nth j cols []) 0)) (seq 0 n)).
Proof.
  intros Hn Hr. unfold sparse_row. assert ((n <=? length cols)%nat = true) as -> by (apply Nat.leb_le; auto).
  assert (forallb (fun c => (r <? length c)%nat) (firstn n cols) = true) as ->; [|reflexivity].
  apply forallb_forall. intros c Hc. apply Nat.ltb_lt, Hr. rewrite <- (firstn_skipn n cols). apply in_or_app. auto.
Qed.

(** C102: the Jacobian of a Cartesian position constraint is the forward difference quotient of its values: row i,
    column index + k for joint k.  The frame that is not active does not move; the two differences of tesseract are
    componentwise differences of the transform error *)
Theorem C102_partial : forall {Tf} (source target : list R -> Tf) (transform_error : Tf -> Tf -> list R)
    (error_diff : Tf -> Tf -> Tf -> list R) (error_diff2 : Tf -> Tf -> Tf -> Tf -> list R) geometric add_twist
    dof hs ht sa ta split (coeffs : list R) bounds c (numeric : bool) (eps : R) index q,
  cartpos_new dof hs ht sa ta split coeffs bounds = Val c ->
  (numeric = true \/ (sa = true /\ ta = true)) -> length q = dof ->
  (forall a b, length (transform_error a b) = 6%nat) ->
  (forall a b b', length (error_diff a b b') = 6%nat) -> (forall a a' b b', length (error_diff2 a a' b b') = 6%nat) ->
  (forall a b b' i, (i < 6)%nat -> nth i (error_diff a b b') 0 = nth i (transform_error a b') 0 - nth i (transform_error a b) 0) ->
  (forall a a' b b' i, (i < 6)%nat -> nth i (error_diff2 a a' b b') 0 = nth i (transform_error a' b') 0 - nth i (transform_error a b) 0) ->
  (sa = false -> forall x, source x = source q) -> (ta = false -> forall x, target x = target q) ->
  exists rows, cartpos_jacobian source target error_diff error_diff2 geometric add_twist numeric eps index c q = Val rows /\
    length rows = length (cp_indices c) /\
    forall i k v v', (i < length rows)%nat -> (k < dof)%nat ->
      cartpos_values source target transform_error c q = Val v ->
      cartpos_values source target transform_error c (upd q k (nth k q 0 + eps)) = Val v' ->
      length (nth i rows []) = dof /\
      nth k (nth i rows []) (0%nat, 0) = ((index + k)%nat, (nth i v' 0 - nth i v 0) / eps).
Proof.
  intros Tf source target te ed ed2 geo tw dof hs ht sa ta split coeffs bounds c numeric eps index q H Hnum Hq Hte Hl1 Hl2 Hed Hed2 Hs Ht.
  destruct (C101_rows _ _ _ _ _ _ _ _ _ H) as (_ & _ & _ & Hdof & Hidx & _).
  assert (Hidx6 : forall i, In i (cp_indices c) -> (i < 6)%nat) by (intros i Hi; apply Hidx; auto). clear Hidx.
  apply new_inv in H. destruct H as (Hd & _ & _ & _ & _ & Hact & Hc).
  assert (Hty : cp_type c = if ta && sa then BothActive else if ta then TargetActive else SourceActive) by (rewrite Hc; reflexivity). clear Hc.
  pose (E x := match cp_type c with TargetActive => te (source x) (target x) | _ => te (target x) (source x) end).
  pose (D x := match cp_type c with TargetActive => ed (source q) (target q) (target x)
               | SourceActive => ed (target q) (source q) (source x)
               | BothActive => ed2 (target q) (target x) (source q) (source x) end).
  assert (HE : forall x, length (E x) = 6%nat) by (intros; unfold E; destruct (cp_type c); auto).
  assert (HD : forall x, length (D x) = 6%nat) by (intros; unfold D; destruct (cp_type c); auto).
  assert (HDE : forall x i, (i < 6)%nat -> nth i (D x) 0 = nth i (E x) 0 - nth i (E q) 0).
  { intros x i Hi. unfold D, E. rewrite Hty. destruct ta, sa; try discriminate; cbn [andb]; rewrite ?Hed, ?Hed2 by auto; auto.
    - rewrite (Hs eq_refl x). reflexivity.
    - rewrite (Ht eq_refl x). reflexivity. }
  assert (HV : forall x, cartpos_values source target te c x = Val (map (fun i => nth i (E x) 0) (cp_indices c))).
  { intros x. unfold cartpos_values. fold (E x). apply select_ok. intros. rewrite HE. auto. }
  assert (HJ : cartpos_jacobian source target ed ed2 geo tw numeric eps index c q =
    gather_rows (sparse_row index (cp_dof c)
      (map (fun j => map (fun v => v / eps) (map (fun i => nth i (D (upd q j (nth j q 0 + eps))) 0) (cp_indices c))) (seq 0 (length q))))
      (seq 0 (length (cp_indices c)))).
  { unfold cartpos_jacobian.
    assert ((numeric || match cp_type c with BothActive => true | _ => false end)%bool = true) as ->.
    { destruct Hnum as [-> | [-> ->]]; [reflexivity|]. rewrite Hty. cbn. apply orb_true_r. }
    rewrite (diff_columns_ok eps q _ (fun x => map (fun i => nth i (D x) 0) (cp_indices c))) by
      (auto; intros x _; unfold cartpos_diff; fold (D x); apply select_ok; intros; rewrite HD; auto).
    reflexivity. }
  rewrite HJ. clear HJ. rewrite Hdof, Hq. set (cols := map _ (seq 0 dof)).
  assert (Hcl : length cols = dof) by (unfold cols; rewrite map_length, seq_length; reflexivity).
  rewrite (gather_ok _ (fun r => map (fun j => ((index + j)%nat, nth r (nth j cols []) 0)) (seq 0 dof))).
  2:{ intros r Hr. apply in_seq in Hr. apply sparse_row_ok; [lia|]. intros col Hcol. unfold cols in Hcol. apply in_map_iff in Hcol.
      destruct Hcol as (j & <- & _). rewrite !map_length. lia. }
  eexists. split; [reflexivity|]. rewrite map_length, seq_length. split; [reflexivity|].
  intros i k v v' Hi Hk Hv Hv'. rewrite HV in Hv, Hv'. injection Hv as <-. injection Hv' as <-.
  rewrite nth_map_seq by auto. split; [rewrite map_length, seq_length; reflexivity|]. rewrite nth_map_seq by auto. f_equal.
  unfold cols. rewrite nth_map_seq by auto. set (x := upd q k (nth k q 0 + eps)).
  rewrite (nth_indep _ 0 (0 / eps)) by (rewrite !map_length; auto). rewrite (map_nth (fun v => v / eps)).
  rewrite !(nth_indep _ 0 (nth 0 (@nil R) 0)) by (rewrite map_length; auto).
  assert (M : forall g : nat -> R, nth i (map g (cp_indices c)) 0 = g (nth i (cp_indices c) 0%nat)).
  { intros g. rewrite (nth_indep _ 0 (g 0%nat)) by (rewrite map_length; auto). apply map_nth. }
  cbn [nth]. rewrite !M. rewrite HDE; [reflexivity|]. apply Hidx6, nth_In. auto.
Qed.
Print Assumptions C102_partial.

(** frames on a line, the source moved by the joints, the target at 5 *)
Definition ex_te (a b : R) : list R := repeat (b - a) 6.
Definition ex_ed (a b b' : R) : list R := map (fun i => nth i (ex_te a b') 0 - nth i (ex_te a b) 0) (seq 0 6).
Definition ex_ed2 (a a' b b' : R) : list R := map (fun i => nth i (ex_te a' b') 0 - nth i (ex_te a b) 0) (seq 0 6).
Example C102_ex : (forall a b b' i, (i < 6)%nat -> nth i (ex_ed a b b') 0 = nth i (ex_te a b') 0 - nth i (ex_te a b) 0) /\
  (forall a a' b b' i, (i < 6)%nat -> nth i (ex_ed2 a a' b b') 0 = nth i (ex_te a' b') 0 - nth i (ex_te a b) 0) /\
  exists c, cartpos_new 2 true true true false true ex_coeffs ex_bounds = Val c /\
  cartpos_jacobian (fun q => nth 0 q 0 + 3 * nth 1 q 0) (fun _ => 5) ex_ed ex_ed2 (fun _ => []) (fun t _ _ => t) true (1 / 2) 4 c [7; 8] =
  Val [[(4%nat, 1); (5%nat, 3)]; [(4%nat, 1); (5%nat, 3)]; [(4%nat, 1); (5%nat, 3)]].
Proof.
  split; [intros; unfold ex_ed; rewrite nth_map_seq by auto; reflexivity|].
  split; [intros; unfold ex_ed2; rewrite nth_map_seq by auto; reflexivity|].
  destruct C101_ex as (c & Hc & Ht & Hi & _). 
  eexists. split; [reflexivity|]. injection Hc as Hc.
  match goal with |- cartpos_jacobian _ _ _ _ _ _ _ _ _ ?x _ = _ => assert (Hx : cp_indices x = [0; 0; 2]%nat /\ cp_type x = SourceActive /\ cp_dof x = 2%nat) end.
  { rewrite <- Hc in Hi. split; [exact Hi|]. auto. }
  destruct Hx as (X1 & X2 & X3). match goal with |- cartpos_jacobian _ _ _ _ _ _ _ _ _ ?x _ = _ => set (cc := x) in * end. clearbody cc.
  unfold cartpos_jacobian, cartpos_diff. rewrite X1, X2, X3. cbn [orb length].
  unfold select. cbn. unfold el. cbn. 
  repeat match goal with |- context [(?i, ?a / (1 / 2))] => first [replace (a / (1 / 2)) with 1 by field | replace (a / (1 / 2)) with 3 by field] end.
  reflexivity.
Qed.

(** C102: the variant with the geometric Jacobian needs an error difference of three components; numeric
    differentiation reads component three or higher of it as soon as a rotation is constrained; so, whatever its
    length, one of the two fails *)
Theorem C102_analytic : forall {Tf} (source target : list R -> Tf)
    (error_diff : Tf -> Tf -> Tf -> list R) (error_diff2 : Tf -> Tf -> Tf -> Tf -> list R) geometric add_twist (n : nat)
    (c : cartpos R) (eps : R) index q,
  (forall a b b', length (error_diff a b b') = n) ->
  cp_type c <> BothActive -> (exists i, In i (cp_indices c) /\ (3 <= i)%nat) -> q <> [] -> geometric q <> [] ->
  cartpos_jacobian source target error_diff error_diff2 geometric add_twist true eps index c q = Bad \/
  cartpos_jacobian source target error_diff error_diff2 geometric add_twist false eps index c q = Bad.
Proof.
  intros Tf source target ed ed2 geo tw n c eps index q Hn Hty (i & Hi & H3) Hq Hg.
  destruct (Nat.eq_dec n 3) as [-> | N].
  - left. unfold cartpos_jacobian. cbn [orb]. destruct q as [|x q]; [congruence|]. cbn [length diff_columns].
    assert (B : forall y, cartpos_diff source target ed ed2 c (x :: q) y = Bad).
    { intros y. unfold cartpos_diff, select.
      assert (K : forall e : list R, length e = 3%nat -> forallb (fun i => (i <? length e)%nat) (cp_indices c) = false).
      { intros e He. destruct (forallb _ _) eqn:F; auto. rewrite forallb_forall in F. specialize (F i Hi). apply Nat.ltb_lt in F. lia. }
      destruct (cp_type c); try congruence; rewrite K; auto. }
    rewrite B. reflexivity.
  - right. unfold cartpos_jacobian. cbn [orb].
    assert ((match cp_type c with BothActive => true | _ => false end) = false) as -> by (destruct (cp_type c); congruence).
    destruct (geo q) as [|g gs]; [congruence|]. cbn [gather_rows]. unfold set_tail at 1.
    assert (K : forall e : list R, length e = n -> (length e =? 3)%nat = false) by (intros e He; apply Nat.eqb_neq; lia).
    destruct (cp_type c); try congruence; rewrite K; auto.
Qed.
Print Assumptions C102_analytic.

(** C102 does not extend to numeric = false with one active frame: a constructed constraint, a well-formed six
    component difference, a one-joint arm; the numeric Jacobian exists, the analytic one asserts *)
Theorem C102_analytic_refuted : exists c,
  cartpos_new 1 true true true false true [0; 0; 0; 1; 0; 0] (repeat (bound_zero (T := R)) 6) = Val c /\
  let jac numeric := cartpos_jacobian (fun q => nth 0 q 0) (fun _ => 5) ex_ed ex_ed2 (fun _ => [[0; 0; 0; 1; 0; 0]])
                       (fun t g d => t + nth 3 g 0 * d) numeric (1 / 2) 4 c [7] in
  (exists rows, jac true = Val rows) /\ jac false = Bad.
Proof.
  eexists. split; [reflexivity|]. cbn [seq flat_map]. unfold component_rows, el. change (@nzero R R_Num) with 0. cbn [nth].
  rewrite zero_zero, big by lra.
  assert (is_range (nth 3 (repeat (bound_zero (T := R)) 6) unbounded) = false) as Hr.
  { cbn. unfold is_range, type_of. cbn [b_lo b_hi bound_zero]. rnum. rewrite e8. destruct (Rltb_spec (Rabs (0 - 0)) (/ 100000000)) as [H | H]; [reflexivity|].
    replace (0 - 0) with 0 in H by ring. rewrite Rabs_R0 in H. lra. }
  rewrite Hr. cbn [andb app map fst snd]. cbv zeta. split; [eexists; reflexivity|reflexivity].
Qed.
Print Assumptions C102_analytic_refuted.
