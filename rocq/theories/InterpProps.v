(** * Properties of searchsorted and interp2d (C56), over the reals *)
From Coq Require Import List Arith Bool Reals Lra Lia.
From Verif Require Import Num NumFacts Common ArrayModel.
Import ListNotations.
Local Open Scope R_scope.

(** entries do not decrease *)
Definition ascending (l : list R) : Prop := forall i j, (i <= j < length l)%nat -> nth i l 0 <= nth j l 0.
(** [k] separates the entries of y smaller than x from the others *)
Definition inserts (y : list R) (x : R) (k : nat) : Prop :=
  (k <= length y)%nat /\ (forall j, (j < k)%nat -> nth j y 0 < x) /\ (forall j, (k <= j < length y)%nat -> x <= nth j y 0).

Lemma advance_spec (x : R) y rest iY : rest = skipn iY y -> (iY <= length y)%nat ->
  let (rest', k) := advance x rest iY in
  rest' = skipn k y /\ (iY <= k <= length y)%nat /\ (forall j, (iY <= j < k)%nat -> nth j y 0 < x) /\ ((k < length y)%nat -> x <= nth k y 0).
Proof.
  revert iY. induction rest as [|b rest IH]; intros iY E Hi; cbn [advance].
  - assert (iY = length y). { assert (length (skipn iY y) = 0%nat) by (rewrite <- E; auto). rewrite skipn_length in H. lia. }
    subst iY. split; auto. split; [lia|]. split; intros; lia.
  - assert (Hl : (iY < length y)%nat).
    { assert (length (skipn iY y) = S (length rest)) by (rewrite <- E; auto). rewrite skipn_length in H. lia. }
    assert (Hb : b = nth iY y 0 /\ rest = skipn (S iY) y).
    { clear IH. revert y E Hi Hl. induction iY; intros [|c y]; cbn [skipn length nth]; intros; try lia.
      - injection E; auto.
      - apply IHiY; auto; lia. }
    destruct Hb as (Hb & Hr). rnum. destruct (Rltb_spec b x).
    + specialize (IH (S iY) Hr ltac:(lia)). destruct (advance x rest (S iY)) as (rest', k). destruct IH as (A1 & A2 & A3 & A4).
      split; auto. split; [lia|]. split; auto. intros j Hj. destruct (Nat.eq_dec j iY); [subst; auto|apply A3; lia].
    + split; auto. split; [lia|]. split; [intros; lia|]. intros _. rewrite <- Hb. lra.
Qed.

(** m is the largest of the queries up to number k *)
Definition largest (xs : list R) (k : nat) (m : R) : Prop :=
  (exists j, (j <= k)%nat /\ nth j xs 0 = m) /\ forall j, (j <= k)%nat -> nth j xs 0 <= m.

Lemma search_len (xs rest : list R) iY : length (search_from xs rest iY) = length xs.
Proof. revert rest iY; induction xs; intros; cbn; auto. destruct (advance a rest iY). cbn. auto. Qed.
(** what is known of the queries answered so far: nothing above [iY] was passed over *)
Lemma search_spec (y : list R) : ascending y -> forall xs rest iY, rest = skipn iY y -> (iY <= length y)%nat ->
  forall k, (k < length xs)%nat ->
  let p := nth k (search_from xs rest iY) 0%nat in
  (iY <= p <= length y)%nat /\
  (forall j, (iY <= j < p)%nat -> exists i, (i <= k)%nat /\ nth j y 0 < nth i xs 0) /\
  (forall i j, (i <= k)%nat -> (p <= j < length y)%nat -> nth i xs 0 <= nth j y 0).
Proof.
  intros Hy xs. induction xs as [|x xs IH]; intros rest iY Hr Hi k Hk; cbn [length] in Hk; [lia|].
  cbn [search_from]. assert (A := advance_spec x y rest iY Hr Hi). destruct (advance x rest iY) as (rest', p).
  destruct A as (A1 & A2 & A3 & A4). destruct k as [|k]; cbn [nth].
  - split; [lia|]. split.
    + intros j Hj. exists 0%nat. split; [lia|]. cbn. apply A3; lia.
    + intros i j Hi' Hj. replace i with 0%nat by lia. cbn. apply Rle_trans with (nth p y 0); [apply A4; lia|apply Hy; lia].
  - destruct (IH rest' p A1 ltac:(lia) k ltac:(lia)) as (B1 & B2 & B3). split; [lia|]. split.
    + intros j Hj. destruct (le_lt_dec p j) as [L|L].
      * destruct (B2 j ltac:(lia)) as (i & I1 & I2). exists (S i). split; [lia|exact I2].
      * exists 0%nat. split; [lia|]. cbn. apply A3; lia.
    + intros i j Hi' Hj. destruct i as [|i].
      * cbn. apply Rle_trans with (nth p y 0); [apply A4; lia|apply Hy; lia].
      * apply B3; lia.
Qed.

(** C56: every answer is the insertion position of the largest query so far *)
Theorem C56_search_running (xs y : list R) (k : nat) (m : R) :
  ascending y -> (k < length xs)%nat -> largest xs k m -> inserts y m (nth k (searchsorted xs y) 0%nat).
Proof.
  intros Hy Hk ((j0 & J1 & J2) & J3).
  destruct (search_spec y Hy xs y 0%nat eq_refl ltac:(lia) k Hk) as (B1 & B2 & B3).
  unfold searchsorted. split; [lia|]. split.
  - intros j Hj. destruct (B2 j ltac:(lia)) as (i & I1 & I2). specialize (J3 i I1). lra.
  - intros j Hj. rewrite <- J2. apply B3; auto.
Qed.
Print Assumptions C56_search_running.

(** C56: for ascending queries every answer is the insertion position of its query *)
Theorem C56_search (xs y : list R) :
  ascending y -> ascending xs ->
  length (searchsorted xs y) = length xs /\
  forall k, (k < length xs)%nat -> inserts y (nth k xs 0) (nth k (searchsorted xs y) 0%nat).
Proof.
  intros Hy Hx. split; [apply search_len|]. intros k Hk. apply C56_search_running; auto. split; [exists k; auto|].
  intros j Hj. apply Hx; lia.
Qed.
Print Assumptions C56_search.

(** queries in another order get wrong answers *)
Theorem C56_search_refuted : exists (xs y : list R) k, ascending y /\ (k < length xs)%nat /\ ~ inserts y (nth k xs 0) (nth k (searchsorted xs y) 0%nat).
Proof.
  exists [1; 0], [1/2], 1%nat. split.
  { intros i j Hij. cbn [length] in Hij. replace i with 0%nat by lia. replace j with 0%nat by lia. lra. }
  split; [cbn; lia|]. unfold searchsorted. cbn [search_from advance]. rnum.
  destruct (Rltb_spec (1/2) 1); [|lra]. cbn [search_from advance nth]. intros (_ & H1 & _). specialize (H1 0%nat ltac:(lia)). cbn in H1. lra.
Qed.
Print Assumptions C56_search_refuted.

(** the comment above the function claims y(i-1) <= x < y(i); at an entry it is the other way round *)
Theorem C56_comment_refuted : exists (xs y : list R), ascending y /\ ascending xs /\ length xs = 1%nat /\ length y = 1%nat /\
  let i := nth 0 (searchsorted xs y) 0%nat in i = 0%nat /\ ~ nth 0 xs 0 < nth i y 0.
Proof.
  assert (A1 : ascending [1]). { intros i j Hij. cbn [length] in Hij. replace i with 0%nat by lia. replace j with 0%nat by lia. lra. }
  exists [1], [1]. split; auto. split; auto. split; auto. split; auto. unfold searchsorted. cbn [search_from advance]. rnum.
  destruct (Rltb_spec 1 1); [lra|]. cbn. split; auto. lra.
Qed.
Print Assumptions C56_comment_refuted.

(** ** interp2d *)
Lemma oseq_ok {X B} (d : B) (dx : X) (f : X -> outcome B) l : (forall x, In x l -> exists b, f x = Ok b) ->
  exists bs, oseq (map f l) = Ok bs /\ length bs = length l /\ forall k, (k < length l)%nat -> f (nth k l dx) = Ok (nth k bs d).
Proof.
  induction l as [|x l IH]; intros Hf; cbn.
  - exists []. split; auto. split; auto. intros; lia.
  - destruct (Hf x (or_introl eq_refl)) as (b & Eb). rewrite Eb. cbn.
    destruct IH as (bs & E & L & N); [intros; apply Hf; right; auto|]. rewrite E. cbn. exists (b :: bs). split; auto. split; [cbn; lia|].
    intros [|k] Hk; [exact Eb|]. apply N. lia.
Qed.
(** entry j of the row interpolated at x *)
Definition entry (m : list (list R)) (i j : nat) : R := nth j (nth i m []) 0.
(** every row has w entries *)
Definition rect (m : list (list R)) (n w : nat) : Prop := length m = n /\ forall i, (i < n)%nat -> length (nth i m []) = w.

Lemma nth_map_lt {X Y} (f : X -> Y) l k dx dy : (k < length l)%nat -> nth k (map f l) dy = f (nth k l dx).
Proof. revert k; induction l; intros [|k] Hk; cbn in *; try lia; auto. apply IHl; lia. Qed.
Lemma row_mix (y0 y1 : list R) (t : R) j w : length y0 = w -> length y1 = w ->
  let r := row_add (row_scale y0 (1 - t)) (row_scale y1 t) in
  length r = w /\ ((j < w)%nat -> nth j r 0 = nth j y0 0 * (1 - t) + nth j y1 0 * t).
Proof.
  intros L0 L1. unfold row_add, row_scale. cbn zeta. rewrite map_length, combine_length, !map_length, L0, L1.
  split; [lia|]. intros Hj. rnum.
  rewrite (nth_map_lt _ _ j (0, 0)) by (rewrite combine_length, !map_length; lia).
  rewrite combine_nth by (rewrite !map_length; lia). cbn [fst snd].
  rewrite !(nth_map_lt _ _ j 0) by lia. reflexivity.
Qed.

(** C56: interp2d is the piecewise linear function through the table, constant outside *)
Theorem C56_interp (xNew xOld : list R) (yOld : list (list R)) (w : nat) :
  ascending xOld -> ascending xNew -> rect yOld (length xOld) w -> xOld <> [] ->
  exists yNew, interp2d xNew xOld yOld = Ok yNew /\ rect yNew (length xNew) w /\
  forall k j, (k < length xNew)%nat -> (j < w)%nat ->
    let x := nth k xNew 0 in
    (x <= nth 0 xOld 0 -> entry yNew k j = entry yOld 0 j) /\
    (nth (length xOld - 1) xOld 0 < x -> entry yNew k j = entry yOld (length xOld - 1) j) /\
    (forall i, (S i < length xOld)%nat -> nth i xOld 0 < x <= nth (S i) xOld 0 ->
       entry yNew k j = entry yOld i j + (entry yOld (S i) j - entry yOld i j) * ((x - nth i xOld 0) / (nth (S i) xOld 0 - nth i xOld 0))).
Proof.
  intros Ho Hx (Ly & Ry) Hne. destruct (C56_search xNew xOld Ho Hx) as (Sl & Ss).
  assert (Hn : (0 < length xOld)%nat) by (destruct xOld; [easy|cbn; lia]).
  set (ks := searchsorted xNew xOld) in *.
  assert (Hget : forall i, (i < length xOld)%nat -> nth_error yOld i = Some (nth i yOld [])) by (intros; apply nth_error_nth'; lia).
  destruct (oseq_ok (@nil R) (0, 0%nat) (fun p => interp_row xOld yOld (fst p) (snd p)) (combine xNew ks)) as (yNew & E & L & N).
  { intros (x, p) Hin. cbn [fst snd].
    apply In_nth with (d := (0, 0%nat)) in Hin. destruct Hin as (k & Hk & E). rewrite combine_length in Hk.
    rewrite combine_nth in E by lia. injection E as Ex Ep. destruct (Ss k ltac:(lia)) as (P1 & _). fold ks in P1. rewrite Ep in P1.
    unfold interp_row. destruct (Nat.eqb_spec p 0); [rewrite Hget by lia; eauto|].
    destruct (Nat.eqb_spec p (length xOld)); [rewrite Hget by lia; eauto|].
    rewrite !Hget by lia. cbn [obind]. eauto. }
  rewrite combine_length in L, N. rewrite Sl, Nat.min_id in L, N.
  exists yNew. split; [exact E|].
  assert (K : forall k, (k < length xNew)%nat -> interp_row xOld yOld (nth k xNew 0) (nth k ks 0%nat) = Ok (nth k yNew [])).
  { intros k Hk. specialize (N k Hk). rewrite combine_nth in N by lia. exact N. }
  split.
  - split; [lia|]. intros k Hk. specialize (K k Hk). destruct (Ss k Hk) as (P1 & P2 & P3). fold ks in P1, P2, P3. set (p := nth k ks 0%nat) in *.
    unfold interp_row in K. destruct (Nat.eqb_spec p 0).
    { rewrite Hget in K by lia. injection K as <-. apply Ry; lia. }
    destruct (Nat.eqb_spec p (length xOld)).
    { rewrite Hget in K by lia. injection K as <-. apply Ry; lia. }
    rewrite !Hget in K by lia. cbn [obind] in K.
    match type of K with Ok (row_add (row_scale ?a (none_ - ?t)%num) (row_scale ?b ?t)) = _ => set (tt := t) in K; destruct (row_mix a b tt 0 w) as (R1 & _); try (apply Ry; lia) end.
    injection K as <-. exact R1.
  - intros k j Hk Hj x. specialize (K k Hk). destruct (Ss k Hk) as (P1 & P2 & P3). fold x in K, P2, P3. set (p := nth k ks 0%nat) in *.
    split; [|split].
    + intros H0. assert (p = 0%nat). { destruct (Nat.eq_dec p 0); auto. specialize (P2 0%nat ltac:(lia)). lra. }
      unfold interp_row in K. rewrite H in K. cbn [Nat.eqb] in K. rewrite Hget in K by lia. injection K as K. unfold entry. rewrite K. reflexivity.
    + intros H0. assert (p = length xOld). { destruct (Nat.eq_dec p (length xOld)); auto. specialize (P3 (length xOld - 1)%nat ltac:(lia)). lra. }
      unfold interp_row in K. destruct (Nat.eqb_spec p 0); [lia|]. rewrite H, Nat.eqb_refl, Hget in K by lia. injection K as K. unfold entry. rewrite K. reflexivity.
    + intros i Hi (H1 & H2).
      assert (p = S i).
      { destruct (lt_eq_lt_dec p (S i)) as [[L1|]|L1]; auto.
        - specialize (P3 i ltac:(lia)). lra.
        - specialize (P2 (S i) ltac:(lia)). lra. }
      unfold interp_row in K. rewrite H in K. destruct (Nat.eqb_spec (S i) 0); [lia|]. destruct (Nat.eqb_spec (S i) (length xOld)); [lia|].
      replace (S i - 1)%nat with i in K by lia. rewrite !Hget in K by lia. cbn [obind] in K.
      match type of K with Ok (row_add (row_scale ?a (none_ - ?t)%num) (row_scale ?b ?t)) = _ => set (tt := t) in K; destruct (row_mix a b tt j w) as (_ & R2); try (apply Ry; lia) end.
      rnum. unfold entry. injection K as K. rewrite <- K, R2 by lia. fold tt.
      change ((x - nth i xOld 0) / (nth (S i) xOld 0 - nth i xOld 0)) with tt. lra.
Qed.
Print Assumptions C56_interp.

(** C56: at the knots the table is reproduced (for repeated knots, the first of them) *)
Theorem C56_knots (xNew xOld : list R) (yOld yNew : list (list R)) (w k i j : nat) :
  ascending xOld -> ascending xNew -> rect yOld (length xOld) w -> interp2d xNew xOld yOld = Ok yNew ->
  (k < length xNew)%nat -> (i < length xOld)%nat -> (j < w)%nat -> nth k xNew 0 = nth i xOld 0 ->
  (forall i', (i' < i)%nat -> nth i' xOld 0 < nth i xOld 0) -> entry yNew k j = entry yOld i j.
Proof.
  intros Ho Hx Hr E Hk Hi Hj Ek Hfirst.
  destruct (C56_interp xNew xOld yOld w Ho Hx Hr) as (yNew' & E' & _ & S); [destruct xOld; [cbn in Hi; lia|easy]|].
  rewrite E in E'. injection E' as <-. destruct (S k j Hk Hj) as (S1 & _ & S3). destruct i as [|i].
  - apply S1. lra.
  - rewrite (S3 i); auto.
    + rewrite Ek. specialize (Hfirst i ltac:(lia)). field. lra.
    + rewrite Ek. specialize (Hfirst i ltac:(lia)). lra.
Qed.
Print Assumptions C56_knots.

(** C56: every value lies between two neighbouring values of the table *)
Theorem C56_between (xNew xOld : list R) (yOld yNew : list (list R)) (w k j : nat) :
  ascending xOld -> ascending xNew -> rect yOld (length xOld) w -> xOld <> [] -> interp2d xNew xOld yOld = Ok yNew ->
  (k < length xNew)%nat -> (j < w)%nat ->
  exists i, (i < length xOld)%nat /\ let i' := Nat.min (S i) (length xOld - 1) in
    Rmin (entry yOld i j) (entry yOld i' j) <= entry yNew k j <= Rmax (entry yOld i j) (entry yOld i' j) /\
    (nth 0 xOld 0 <= nth k xNew 0 <= nth (length xOld - 1) xOld 0 -> nth i xOld 0 <= nth k xNew 0 <= nth i' xOld 0).
Proof.
  intros Ho Hx Hr Hne E Hk Hj.
  destruct (C56_interp xNew xOld yOld w Ho Hx Hr Hne) as (yNew' & E' & _ & S).
  rewrite E in E'. injection E' as <-. destruct (S k j Hk Hj) as (S1 & S2 & S3). clear S. set (x := nth k xNew 0) in *.
  assert (Hn : (0 < length xOld)%nat) by (destruct xOld; [easy|cbn; lia]).
  assert (M : forall a b, Rmin a b <= a /\ Rmin a b <= b /\ a <= Rmax a b /\ b <= Rmax a b).
  { intros; split; [apply Rmin_l|split; [apply Rmin_r|split; [apply Rmax_l|apply Rmax_r]]]. }
  destruct (Rle_lt_dec x (nth 0 xOld 0)) as [H0|H0].
  - exists 0%nat. split; auto. cbn zeta. rewrite S1 by auto.
    specialize (M (entry yOld 0 j) (entry yOld (Nat.min 1 (length xOld - 1)) j)). split; [lra|].
    intros Hin. assert (nth 0 xOld 0 <= nth (Nat.min 1 (length xOld - 1)) xOld 0) by (apply Ho; lia). lra.
  - destruct (Rlt_le_dec (nth (length xOld - 1) xOld 0) x) as [H1|H1].
    + exists (length xOld - 1)%nat. split; [lia|]. cbn zeta. rewrite S2 by auto. replace (Nat.min (Datatypes.S (length xOld - 1)) (length xOld - 1)) with (length xOld - 1)%nat by lia.
      specialize (M (entry yOld (length xOld - 1) j) (entry yOld (length xOld - 1) j)). split; [lra|]. lra.
    + assert (Hex : exists i, (Datatypes.S i < length xOld)%nat /\ nth i xOld 0 < x <= nth (Datatypes.S i) xOld 0).
      { assert (G : forall d, (d < length xOld)%nat -> x <= nth d xOld 0 -> exists i, (Datatypes.S i <= d)%nat /\ nth i xOld 0 < x <= nth (Datatypes.S i) xOld 0).
        { induction d; intros Hd Hxd; [lra|]. destruct (Rlt_le_dec (nth d xOld 0) x) as [L|L]; [exists d; split; auto|].
          destruct (IHd ltac:(lia) L) as (i & I1 & I2). exists i. split; [lia|auto]. }
        destruct (G (length xOld - 1)%nat ltac:(lia) H1) as (i & I1 & I2). exists i. split; [lia|auto]. }
      destruct Hex as (i & Hi & Hxi). exists i. split; [lia|]. cbn zeta. replace (Nat.min (Datatypes.S i) (length xOld - 1)) with (Datatypes.S i) by lia.
      rewrite (S3 i Hi Hxi). split; [|lra].
      set (a := entry yOld i j). set (b := entry yOld (Datatypes.S i) j). set (t := (x - nth i xOld 0) / (nth (Datatypes.S i) xOld 0 - nth i xOld 0)).
      assert (Ht : 0 <= t <= 1).
      { unfold t. split.
        - apply Rmult_le_pos; [lra|]. apply Rlt_le, Rinv_0_lt_compat. lra.
        - apply (Rmult_le_reg_r (nth (Datatypes.S i) xOld 0 - nth i xOld 0)); [lra|]. unfold Rdiv. rewrite Rmult_assoc, Rinv_l by lra. lra. }
      destruct (Rle_lt_dec a b).
      * rewrite Rmin_left, Rmax_right by lra. nra.
      * rewrite Rmin_right, Rmax_left by lra. nra.
Qed.
Print Assumptions C56_between.

(** an empty table trips Eigen's row assertion *)
Theorem C56_empty_refuted : exists (xNew : list R), interp2d xNew [] [] = Undef.
Proof. exists [0]. reflexivity. Qed.
Print Assumptions C56_empty_refuted.

Require Import QArith.
Example C56_ex :
  searchsorted [0; 1#2; 1; 3#2; 5]%Q [0; 1; 2]%Q = [0; 1; 1; 2; 3]%nat /\
  interp2d [-(1); 1; 3#2; 5]%Q [0; 1; 2]%Q [[0; 10]; [1; 20]; [3; 0]]%Q = Ok [[0; 10]; [1; 20]; [2; 10]; [3; 0]]%Q.
Proof. vm_compute. split; reflexivity. Qed.
Local Open Scope R_scope.
Example C56_hyps : ascending [0; 1; 2] /\ rect [[0; 10]; [1; 20]; [3; 0]] (length [0; 1; 2]) 2.
Proof.
  split.
  - intros i j Hij. cbn [length] in Hij. destruct i as [|[|[|]]]; destruct j as [|[|[|]]]; try lia; cbn; lra.
  - split; [reflexivity|]. intros i Hi. cbn [length] in Hi. destruct i as [|[|[|]]]; try lia; reflexivity.
Qed.
