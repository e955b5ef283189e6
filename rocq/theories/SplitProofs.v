(** * Proofs about the parts of the convex hull *)
From Coq Require Import List Arith Bool ZArith Lia Sorted.
From Verif Require Import Common SortModel SortSpec FreeModel SplitModel SplitSpec.
Import ListNotations.
Local Open Scope nat_scope.

Lemma cmp_before p q : point_cmp p q = true <-> before p q.
Proof. unfold point_cmp, before. rewrite orb_true_iff, andb_true_iff, orb_true_iff, andb_true_iff, !Z.ltb_lt, !Z.eqb_eq. tauto. Qed.
Lemma same_coords p q : same_pt p q = true <-> coords p = coords q.
Proof.
  unfold same_pt, coords. rewrite !andb_true_iff, !Z.eqb_eq. split; [intros ((-> & ->) & ->); reflexivity|intros e; injection e; auto].
Qed.
Lemma sorted_idx pts : sorted point_cmp pts -> forall i j p q, i < j -> nth_error pts i = Some p -> nth_error pts j = Some q -> ~ before q p.
Proof.
  intros hs i j p q hij hi hj hb. apply nth_error_split in hi. destruct hi as (l & r & -> & hl).
  rewrite nth_error_app2 in hj by lia. destruct (j - length l) as [|k] eqn:ek; [lia|]. cbn [nth_error] in hj.
  apply nth_error_split in hj. destruct hj as (m & r2 & -> & _). specialize (hs l p m q r2 eq_refl). apply cmp_before in hb. congruence.
Qed.
Lemma not_before_trans p q r : ~ before q p -> before q r -> before p r.
Proof. unfold before. lia. Qed.
Lemma before_not p q r : before p q -> ~ before r q -> before p r.
Proof. unfold before. lia. Qed.
Lemma not_before_neq p q : ~ before q p -> coords p <> coords q -> before p q.
Proof.
  unfold before, coords. intros h1 h2. destruct (Z.eq_dec (px p) (px q)) as [a|a], (Z.eq_dec (py p) (py q)) as [b|b], (Z.eq_dec (pz p) (pz q)) as [c|c]; try lia.
  destruct h2. now rewrite a, b, c.
Qed.
Lemma sorted_app {A} (r : A -> A -> Prop) l m : StronglySorted r l -> StronglySorted r m -> (forall x y, In x l -> In y m -> r x y) -> StronglySorted r (l ++ m).
Proof.
  intros hl hm hx. induction hl as [|a l hl ih ha]; [exact hm|]. cbn [app]. constructor.
  - apply ih. intros x y h1 h2. apply hx; [now right|exact h2].
  - apply Forall_app. split; [exact ha|]. apply Forall_forall. intros y hy. apply hx; [now left|exact hy].
Qed.
Lemma at_ok pts i : i < length pts -> exists p, nth_error pts i = Some p /\ at_pt pts i = Ok p.
Proof. intros h. unfold at_pt. destruct (nth_error pts i) as [p|] eqn:e; [eauto|]. apply nth_error_None in e. lia. Qed.

Lemma skip_ok pts p : forall d s, s + d <= length pts -> exists s1, skip pts p s d = Ok s1 /\ s <= s1 <= s + d /\
  (forall k q, s <= k < s1 -> nth_error pts k = Some q -> coords q = coords p) /\
  (s1 < s + d -> exists q, nth_error pts s1 = Some q /\ coords q <> coords p).
Proof.
  induction d as [|d ih]; intros s hl; cbn [skip].
  - exists s. split; [reflexivity|]. split; [lia|]. split; [intros; lia|lia].
  - destruct (at_ok pts s) as (q & hq & ->); [lia|]. cbn [obind]. destruct (same_pt q p) eqn:e.
    + apply same_coords in e. destruct (ih (s + 1)) as (s1 & a1 & a2 & a3 & a4); [lia|]. exists s1. split; [exact a1|]. split; [lia|]. split.
      * intros k r hk hr. destruct (Nat.eq_dec k s) as [->|]; [congruence|]. apply (a3 k); [lia|exact hr].
      * intros h. apply a4. lia.
    + exists s. split; [reflexivity|]. split; [lia|]. split; [intros; lia|]. intros _. exists q. split; [exact hq|].
      intros z. apply same_coords in z. congruence.
Qed.
Lemma diff_ok a b : (Z.abs a < 2 ^ 30)%Z -> (Z.abs b < 2 ^ 30)%Z -> diff32 a b = Ok (a - b)%Z.
Proof.
  intros h1 h2. unfold diff32. destruct (Z.leb_spec (- 2 ^ 31) (a - b)); [|lia]. destruct (Z.ltb_spec (a - b) (2 ^ 31)); [|lia]. reflexivity.
Qed.
Lemma two_extreme pts v w x lo hi lo' hi' p q : nth_error pts v = Some p -> nth_error pts w = Some q -> x = Ext lo hi lo' hi' ->
  (lo = v /\ le_xy p q \/ lo = w /\ le_xy q p) -> (hi = v /\ le_xy q p \/ hi = w /\ le_xy p q) ->
  (lo' = v /\ le_yx p q \/ lo' = w /\ le_yx q p) -> (hi' = v /\ le_yx q p \/ hi' = w /\ le_yx p q) -> extreme pts [v; w] x.
Proof.
  intros hp hq -> h1 h2 h3 h4. unfold extreme. cbn [min_xy max_xy min_yx max_yx In].
  assert (rx : forall y, le_xy y y) by (unfold le_xy; lia). assert (ry : forall y, le_yx y y) by (unfold le_yx; lia).
  split; [destruct h1 as [(-> & _)|(-> & _)]; auto|]. split; [destruct h2 as [(-> & _)|(-> & _)]; auto|].
  split; [destruct h3 as [(-> & _)|(-> & _)]; auto|]. split; [destruct h4 as [(-> & _)|(-> & _)]; auto|].
  exists (if lo =? v then p else q), (if hi =? v then p else q), (if lo' =? v then p else q), (if hi' =? v then p else q).
  assert (F : forall k, k = v \/ k = w -> nth_error pts k = Some (if k =? v then p else q)).
  { intros k [->| ->]; [now rewrite Nat.eqb_refl|]. destruct (Nat.eqb_spec w v) as [->|]; [exact hp|exact hq]. }
  split; [apply F; tauto|]. split; [apply F; tauto|]. split; [apply F; tauto|]. split; [apply F; tauto|].
  assert (E : w = v -> p = q) by (intros ->; congruence).
  intros i r hi0 hr.
  assert (D : (r = p) \/ (r = q)) by (destruct hi0 as [<-|[<-|[]]]; [left|right]; congruence).
  split; [|split; [|split]].
  - destruct h1 as [(-> & h1)|(-> & h1)]; [rewrite Nat.eqb_refl|destruct (Nat.eqb_spec w v) as [z|z]; [specialize (E z)|]];
      destruct D as [->| ->]; subst; auto.
  - destruct h2 as [(-> & h2)|(-> & h2)]; [rewrite Nat.eqb_refl|destruct (Nat.eqb_spec w v) as [z|z]; [specialize (E z)|]];
      destruct D as [->| ->]; subst; auto.
  - destruct h3 as [(-> & h3)|(-> & h3)]; [rewrite Nat.eqb_refl|destruct (Nat.eqb_spec w v) as [z|z]; [specialize (E z)|]];
      destruct D as [->| ->]; subst; auto.
  - destruct h4 as [(-> & h4)|(-> & h4)]; [rewrite Nat.eqb_refl|destruct (Nat.eqb_spec w v) as [z|z]; [specialize (E z)|]];
      destruct D as [->| ->]; subst; auto.
Qed.
Lemma one_extreme pts v p : nth_error pts v = Some p -> extreme pts [v] (Ext v v v v).
Proof.
  intros hp. unfold extreme. cbn [min_xy max_xy min_yx max_yx In]. split; [auto|]. split; [auto|]. split; [auto|]. split; [auto|].
  exists p, p, p, p. split; [exact hp|]. split; [exact hp|]. split; [exact hp|]. split; [exact hp|].
  intros i q [<-|[]] hq. assert (q = p) as -> by congruence. unfold le_xy, le_yx. lia.
Qed.
Lemma two_ok pts v w p q : nth_error pts v = Some p -> nth_error pts w = Some q -> small pts -> before p q ->
  exists x, two_hull pts v w p q = Ok (Two v w x) /\ extreme pts [v; w] x.
Proof.
  intros hp hq hs hb. destruct (hs p (nth_error_In _ _ hp)) as (s1 & s2), (hs q (nth_error_In _ _ hq)) as (s3 & s4). unfold two_hull.
  rewrite !diff_ok by assumption. cbn [obind]. unfold before in hb.
  destruct (Z.eqb_spec (px p - px q) 0) as [ex|ex], (Z.eqb_spec (py p - py q) 0) as [ey|ey]; cbn [andb orb].
  - destruct (Z.ltb_spec (pz q) (pz p)); [lia|]. destruct (Z.ltb_spec (pz p) (pz q)); [|lia]. eexists. split; [reflexivity|].
    eapply two_extreme; [exact hp|exact hq|reflexivity| | | |]; left; (split; [reflexivity|]); unfold le_xy, le_yx; lia.
  - destruct (Z.ltb_spec (px p - px q) 0); [lia|]. destruct (Z.ltb_spec (py p - py q) 0); [|lia]. cbn [orb]. eexists. split; [reflexivity|].
    eapply two_extreme; [exact hp|exact hq|reflexivity| | | |]; unfold le_xy, le_yx; lia.
  - destruct (Z.ltb_spec (py p - py q) 0); [lia|]. destruct (Z.ltb_spec (px p - px q) 0); [|lia]. cbn [orb]. eexists. split; [reflexivity|].
    eapply two_extreme; [exact hp|exact hq|reflexivity| | | |]; unfold le_xy, le_yx; lia.
  - destruct (Z.ltb_spec (px p - px q) 0), (Z.ltb_spec (py p - py q) 0); cbn [orb]; eexists; (split; [reflexivity|]);
    (eapply two_extreme; [exact hp|exact hq|reflexivity| | | |]); unfold le_xy, le_yx; lia.
Qed.

Section Parts.
  Variable pts : list point32.
  Hypothesis SO : sorted point_cmp pts.
  Hypothesis SM : small pts.
  Definition good (t : parts) (start stop : nat) : Prop :=
    (forall i, In i (leaves t) -> start <= i < stop) /\ StronglySorted (idx_before pts) (leaves t) /\
    (forall k p, start <= k < stop -> nth_error pts k = Some p -> exists i q, In i (leaves t) /\ nth_error pts i = Some q /\ coords q = coords p) /\
    all_extreme pts t.
  Lemma one_good s e p : nth_error pts s = Some p -> s < e ->
    (forall k q, s <= k < e -> nth_error pts k = Some q -> coords p = coords q) -> good (one_hull s) s e.
  Proof.
    intros hp hl h. split; [intros i [<-|[]]; lia|]. split; [repeat constructor|]. split.
    - intros k q hk hq. exists s, p. split; [now left|]. split; [exact hp|]. exact (h k q hk hq).
    - exact (one_extreme pts s p hp).
  Qed.
  Lemma parts_ok : forall fuel start stop, start <= stop -> stop <= length pts -> stop - start < fuel ->
    exists t, compute_parts fuel pts start stop = Ok t /\ good t start stop.
  Proof.
    induction fuel as [|fuel ih]; intros start stop h1 h2 hf; [lia|]. cbn [compute_parts].
    destruct (stop - start) as [|[|[|n]]] eqn:en.
    - exists Empty. split; [reflexivity|]. split; [intros i []|]. split; [constructor|]. split; [intros; lia|exact I].
    - destruct (at_ok pts start) as (p & hp & ->); [lia|]. cbn [obind]. eexists. split; [reflexivity|]. apply (one_good _ _ p hp); [lia|].
      intros k q hk hq. assert (k = start) as -> by lia. congruence.
    - destruct (at_ok pts start) as (p & hp & ->); [lia|]. destruct (at_ok pts (start + 1)) as (q & hq & ->); [lia|]. cbn [obind].
      destruct (same_pt p q) eqn:es.
      + apply same_coords in es. eexists. split; [reflexivity|]. apply (one_good _ _ p hp); [lia|]. intros k r hk hr.
        destruct (Nat.eq_dec k start) as [->|]; [congruence|]. assert (k = start + 1) as -> by lia. congruence.
      + assert (B : before p q).
        { apply not_before_neq; [|intros z; apply same_coords in z; congruence]. eapply (sorted_idx pts SO start (start + 1)); [lia|exact hp|exact hq]. }
        destruct (two_ok pts _ _ p q hp hq SM B) as (x & e & X). exists (Two start (start + 1) x). split; [exact e|].
        split; [intros i [<-|[<-|[]]]; lia|]. split; [|split; [|exact X]].
        * repeat constructor. exists p, q. auto.
        * intros k r hk hr. destruct (Nat.eq_dec k start) as [->|].
          -- exists start, p. split; [now left|]. split; [exact hp|congruence].
          -- assert (k = start + 1) as -> by lia. exists (start + 1), q. split; [right; now left|]. split; [exact hq|congruence].
    - set (m := S (S (S n))) in *. pose proof (Nat.div_mod m 2 ltac:(lia)) as dm. pose proof (Nat.mod_upper_bound m 2 ltac:(lia)) as mb.
      assert (hm : 1 <= m / 2 /\ m / 2 + 1 <= m) by lia. set (s0 := start + m / 2) in *.
      destruct (at_ok pts (s0 - 1)) as (p & hp & ->); [lia|]. cbn [obind].
      destruct (skip_ok pts p (stop - s0) s0) as (s1 & -> & r1 & r2 & r3); [lia|]. cbn [obind].
      destruct (ih start s0) as (a & -> & a1 & a2 & a3 & a4); [lia|lia|lia|]. destruct (ih s1 stop) as (b & -> & b1 & b2 & b3 & b4); [lia|lia|lia|].
      cbn [obind]. exists (Merge a b). split; [reflexivity|]. unfold good. cbn [leaves all_extreme]. split; [|split; [|split; [|tauto]]].
      + intros i hi. apply in_app_iff in hi. destruct hi as [hi|hi]; [apply a1 in hi|apply b1 in hi]; lia.
      + apply sorted_app; [exact a2|exact b2|]. intros i j hi hj. apply a1 in hi. apply b1 in hj.
        destruct (at_ok pts i) as (pi & hpi & _); [lia|]. destruct (at_ok pts j) as (pj & hpj & _); [lia|]. exists pi, pj.
        split; [exact hpi|]. split; [exact hpj|]. destruct r3 as (q & hq & nq); [lia|].
        assert (pq : before p q) by (apply not_before_neq; [apply (sorted_idx pts SO (s0 - 1) s1 p q); [lia|exact hp|exact hq]|congruence]).
        assert (iq : before pi q).
        { destruct (Nat.eq_dec i (s0 - 1)) as [->|]; [assert (pi = p) as -> by congruence; exact pq|].
          eapply not_before_trans; [|exact pq]. apply (sorted_idx pts SO i (s0 - 1)); [lia|exact hpi|exact hp]. }
        destruct (Nat.eq_dec j s1) as [->|]; [assert (pj = q) as -> by congruence; exact iq|].
        eapply before_not; [exact iq|]. apply (sorted_idx pts SO s1 j); [lia|exact hq|exact hpj].
      + intros k r hk hr. destruct (le_lt_dec s0 k) as [g|g]; [destruct (le_lt_dec s1 k) as [g2|g2]|].
        * destruct (b3 k r) as (i & q & i1 & i2); [lia|exact hr|]. exists i, q. split; [apply in_or_app; now right|exact i2].
        * destruct (a3 (s0 - 1) p) as (i & q & i1 & i2 & i3); [lia|exact hp|]. exists i, q. split; [apply in_or_app; now left|]. split; [exact i2|].
          rewrite i3. symmetry. apply (r2 k); [lia|exact hr].
        * destruct (a3 k r) as (i & q & i1 & i2); [lia|exact hr|]. exists i, q. split; [apply in_or_app; now left|exact i2].
  Qed.
End Parts.
