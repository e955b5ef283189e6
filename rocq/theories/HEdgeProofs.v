(** * Proofs about the edges of the convex hull *)
From Coq Require Import List Arith Bool Lia Permutation.
From Verif Require Import Common HEdgeModel HEdgeSpec.
Import ListNotations.

Definition rem (e : nat) (l : list nat) : list nat := remove Nat.eq_dec e l.

Lemma walk_app h l1 c l2 b : forall a, walk h a (l1 ++ c :: l2) b <-> walk h a l1 c /\ walk h c l2 b.
Proof.
  induction l1 as [|x l1 ih]; intros a; cbn [app walk]; [tauto|]. rewrite ih. tauto.
Qed.
Lemma circle_rot h l1 x l2 : circle h (l1 ++ x :: l2) <-> walk h x (l2 ++ l1) x.
Proof.
  destruct l1 as [|y l1]; cbn [app circle]; [now rewrite app_nil_r|]. rewrite !walk_app. tauto.
Qed.
Lemma circle_swap h l1 l2 : circle h (l1 ++ l2) <-> circle h (l2 ++ l1).
Proof.
  destruct l2 as [|y l2]; [now rewrite app_nil_r|]. rewrite circle_rot. reflexivity.
Qed.
Lemma walk_ext h h' l b : forall a, (forall x, In x (a :: l) -> nx h' x = nx h x) ->
  (forall x, In x (l ++ [b]) -> pv h' x = pv h x) -> walk h a l b -> walk h' a l b.
Proof.
  induction l as [|c l ih]; intros a h1 h2; cbn [walk].
  - rewrite (h1 a), (h2 b) by (now left). tauto.
  - rewrite (h1 a), (h2 c) by (now left). intros (e1 & e2 & e3). split; [exact e1|]. split; [exact e2|].
    apply ih; [intros x hx; apply h1; now right|intros x hx; apply h2; now right|exact e3].
Qed.
Lemma circle_ext h h' l : (forall x, In x l -> nx h' x = nx h x /\ pv h' x = pv h x) -> circle h l -> circle h' l.
Proof.
  destruct l as [|x l]; [trivial|]. intros hx. cbn [circle]. apply walk_ext.
  - intros y hy. now apply hx.
  - intros y hy. apply hx. apply in_app_iff in hy. cbn [In] in *. tauto.
Qed.
Lemma rem_in e x l : In x (rem e l) <-> In x l /\ x <> e.
Proof.
  unfold rem. split; [intros h; now apply in_remove in h|]. intros (h1 & h2). now apply in_in_remove.
Qed.
Lemma rem_out e l : ~ In e l -> rem e l = l.
Proof. apply notin_remove. Qed.
Lemma rem_mid e l1 l2 : NoDup (l1 ++ e :: l2) -> rem e (l1 ++ e :: l2) = l1 ++ l2.
Proof.
  intros nd. apply NoDup_remove_2 in nd. unfold rem. rewrite remove_app, remove_cons.
  rewrite !notin_remove; [reflexivity| |]; intros z; apply nd; apply in_or_app; auto.
Qed.
Lemma rem_nodup e l : NoDup l -> NoDup (rem e l).
Proof.
  intros nd. destruct (in_dec Nat.eq_dec e l) as [h|h]; [|now rewrite rem_out].
  destruct (in_split _ _ h) as (a & b & ->). rewrite rem_mid by exact nd. now apply NoDup_remove_1 in nd.
Qed.

(** What the halves need of the hull. *)
Definition laid (h : hull) (f : nat -> list nat) : Prop :=
  (forall v, circle h (f v)) /\
  (forall v, match v_edges h v with None => f v = [] | Some e => In e (f v) end) /\
  (forall v, NoDup (f v)) /\
  (forall v w e, In e (f v) -> In e (f w) -> v = w).
(** Nothing but [next] and [prev] changes. *)
Definition same (h h' : hull) : Prop := forall x, rv h' x = rv h x /\ tg h' x = tg h x /\ (edges_of h' x = None <-> edges_of h x = None).
Lemma same_trans a b c : same a b -> same b c -> same a c.
Proof. intros h1 h2 x. destruct (h1 x) as (p & q & r), (h2 x) as (p' & q' & r'). split; [congruence|]. split; [congruence|tauto]. Qed.

Lemma nx_some h e n : nx h e = Some n -> exists x, edges_of h e = Some x /\ e_next x = Some n.
Proof. unfold nx. destruct (edges_of h e) as [x|]; [eauto|discriminate]. Qed.
Lemma pv_some h e n : pv h e = Some n -> exists x, edges_of h e = Some x /\ e_prev x = Some n.
Proof. unfold pv. destruct (edges_of h e) as [x|]; [eauto|discriminate]. Qed.
Lemma upd_next h p n x : edges_of h p = Some x -> exists h', upd h p (with_next (Some n)) = Ok h' /\ same h h' /\
  nx h' p = Some n /\ (forall y, y <> p -> nx h' y = nx h y) /\ (forall y, pv h' y = pv h y) /\ v_edges h' = v_edges h.
Proof.
  intros e. unfold upd, get. rewrite e. cbn [obind]. eexists. split; [reflexivity|]. split; [|split; [|split; [|split]]].
  - intros y. unfold rv, tg. cbn [set_edge edges_of]. destruct (Nat.eqb_spec y p) as [->|n1]; [|tauto].
    rewrite e. cbn [with_next e_reverse e_target]. split; [reflexivity|]. split; [reflexivity|]. split; discriminate.
  - unfold nx. cbn [set_edge edges_of]. now rewrite Nat.eqb_refl.
  - intros y hy. unfold nx. cbn [set_edge edges_of]. destruct (Nat.eqb_spec y p); [contradiction|reflexivity].
  - intros y. unfold pv. cbn [set_edge edges_of]. destruct (Nat.eqb_spec y p) as [->|]; [now rewrite e|reflexivity].
  - reflexivity.
Qed.
Lemma upd_prev h p n x : edges_of h p = Some x -> exists h', upd h p (with_prev n) = Ok h' /\ same h h' /\
  pv h' p = n /\ (forall y, y <> p -> pv h' y = pv h y /\ edges_of h' y = edges_of h y) /\ (forall y, nx h' y = nx h y) /\ v_edges h' = v_edges h.
Proof.
  intros e. unfold upd, get. rewrite e. cbn [obind]. eexists. split; [reflexivity|]. split; [|split; [|split; [|split]]].
  - intros y. unfold rv, tg. cbn [set_edge edges_of]. destruct (Nat.eqb_spec y p) as [->|n1]; [|tauto].
    rewrite e. cbn [with_prev e_reverse e_target]. split; [reflexivity|]. split; [reflexivity|]. split; discriminate.
  - unfold pv. cbn [set_edge edges_of]. now rewrite Nat.eqb_refl.
  - intros y hy. unfold pv. cbn [set_edge edges_of]. destruct (Nat.eqb_spec y p); [contradiction|split; reflexivity].
  - intros y. unfold nx. cbn [set_edge edges_of]. destruct (Nat.eqb_spec y p) as [->|]; [now rewrite e|reflexivity].
  - reflexivity.
Qed.

Lemma unlink_ok h f e v : laid h f -> In e (f v) ->
  exists h', unlink h e v = Ok h' /\ laid h' (fun u => rem e (f u)) /\ same h h'.
Proof.
  intros (c1 & c2 & c3 & c4) he. pose proof (c1 v) as C. pose proof (c3 v) as ND.
  destruct (in_split _ _ he) as (l1 & l2 & hs). rewrite hs in C, ND. rewrite circle_rot in C.
  assert (MID : rem e (f v) = l1 ++ l2) by (rewrite hs; now apply rem_mid).
  assert (OUT : forall u, u <> v -> rem e (f u) = f u).
  { intros u hu. apply rem_out. intros hi. apply hu. exact (c4 u v e hi he). }
  assert (ND' : NoDup (e :: l2 ++ l1)).
  { rewrite app_comm_cons. eapply Permutation_NoDup; [apply Permutation_app_comm|exact ND]. }
  assert (IN : forall x, In x (f v) <-> x = e \/ In x (l2 ++ l1)).
  { intros x. rewrite hs, !in_app_iff. cbn [In]. intuition congruence. }
  unfold unlink, get. destruct (l2 ++ l1) as [|n m] eqn:hl.
  - cbn [walk] in C. destruct C as (C1 & C2). destruct (nx_some _ _ _ C1) as (x & ex & en). rewrite ex. cbn [obind].
    rewrite en. cbn [deref obind]. rewrite Nat.eqb_refl. eexists. split; [reflexivity|]. split; [|intros y; cbn; tauto].
    apply app_eq_nil in hl. destruct hl as (-> & ->). cbn [app] in MID.
    split; [|split; [|split]].
    + intros u. destruct (Nat.eq_dec u v) as [->|ne]; [rewrite MID; exact I|]. rewrite OUT by exact ne.
      eapply circle_ext; [|exact (c1 u)]. intros y _. split; reflexivity.
    + intros u. cbn [set_vertex v_edges]. destruct (Nat.eqb_spec u v) as [->|ne]; [exact MID|]. rewrite OUT by exact ne. exact (c2 u).
    + intros u. apply rem_nodup, c3.
    + intros u w k hx hy. apply rem_in in hx, hy. eapply c4; [apply hx|apply hy].
  - assert (L : exists m' p, n :: m = m' ++ [p]).
    { destruct (@exists_last _ (n :: m)) as (m' & p & hp); [discriminate|]. eauto. }
    destruct L as (m' & p & hp). assert (W := C). rewrite hp in W. apply walk_app in W. destruct W as (_ & W1 & W2).
    cbn [walk] in C. destruct C as (C1 & C2 & C3).
    apply NoDup_cons_iff in ND'. destruct ND' as (nin & nd).
    assert (ne : n <> e) by (intros ->; apply nin; now left).
    assert (np : p <> e) by (intros ->; apply nin; rewrite hp; apply in_or_app; right; now left).
    destruct (nx_some _ _ _ C1) as (x & ex & en). destruct (pv_some _ _ _ W2) as (x' & ex' & ep).
    assert (x' = x) as -> by congruence. rewrite ex. cbn [obind]. rewrite en. cbn [deref obind].
    destruct (Nat.eqb_spec n e); [contradiction|]. destruct (pv_some _ _ _ C2) as (y & ey & _).
    destruct (upd_prev h n (e_prev x) y ey) as (h1 & u1 & s1 & p1 & p2 & p3 & p4). rewrite u1. cbn [obind].
    destruct (p2 e (fun z => ne (eq_sym z))) as (_ & ge). rewrite ge, ex. cbn [obind]. rewrite ep. cbn [deref obind].
    assert (PE : exists z, edges_of h1 p = Some z).
    { destruct (nx_some h1 p e) as (z & hz & _); [rewrite p3; exact W1|]. eauto. }
    destruct PE as (z & hz). destruct (upd_next h1 p n z hz) as (h2 & v1 & s2 & q1 & q2 & q3 & q4). rewrite v1. cbn [obind].
    eexists. split; [reflexivity|].
    assert (SX : same h (set_vertex h2 v (Some n))) by (eapply same_trans; [eapply same_trans; [exact s1|exact s2]|intros k; cbn; tauto]).
    split; [|exact SX].
    assert (NX : forall k, k <> p -> nx (set_vertex h2 v (Some n)) k = nx h k).
    { intros k hk. change (nx (set_vertex h2 v (Some n)) k) with (nx h2 k). rewrite q2 by exact hk. apply p3. }
    assert (PV : forall k, k <> n -> pv (set_vertex h2 v (Some n)) k = pv h k).
    { intros k hk. change (pv (set_vertex h2 v (Some n)) k) with (pv h2 k). rewrite q3. now apply p2. }
    assert (NP : nx (set_vertex h2 v (Some n)) p = Some n) by exact q1.
    assert (PN : pv (set_vertex h2 v (Some n)) n = Some p).
    { change (pv h2 n = Some p). rewrite q3, p1. exact ep. }
    assert (INn : In n (f v)) by (apply IN; right; now left).
    assert (INp : In p (f v)) by (apply IN; right; rewrite hp; apply in_or_app; right; now left).
    split; [|split; [|split]].
    + intros u. destruct (Nat.eq_dec u v) as [->|nu].
      * rewrite MID. apply circle_swap. rewrite hl. cbn [circle]. destruct m as [|k m].
        -- destruct m' as [|k m']; [injection hp as ->; split; assumption|]. destruct m'; discriminate hp.
        -- destruct m' as [|k' m']; [discriminate hp|]. injection hp as <- hp. rewrite hp in C3, nd |- *.
           apply walk_app in C3. destruct C3 as (C3 & _). apply walk_app. split; [|split; assumption].
           apply NoDup_cons_iff in nd. destruct nd as (n1 & n2). eapply walk_ext; [| |exact C3].
           ++ intros j hj. apply NX. intros ->. destruct hj as [->|hj].
              ** apply n1. apply in_or_app. right. now left.
              ** apply NoDup_remove_2 in n2. apply n2. rewrite app_nil_r. exact hj.
           ++ intros j hj. apply PV. intros ->. exact (n1 hj).
      * rewrite OUT by exact nu. eapply circle_ext; [|exact (c1 u)]. intros j hj. split; [apply NX|apply PV]; intros ->; apply nu.
        -- exact (c4 _ _ _ hj INp).
        -- exact (c4 _ _ _ hj INn).
    + intros u. cbn [set_vertex v_edges]. destruct (Nat.eqb_spec u v) as [->|nu].
      * apply rem_in. split; [exact INn|exact ne].
      * rewrite OUT by exact nu. rewrite q4, p4. exact (c2 u).
    + intros u. apply rem_nodup, c3.
    + intros u w k hx hy. apply rem_in in hx, hy. eapply c4; [apply hx|apply hy].
Qed.

Lemma whole_laid h f : whole h f -> laid h f.
Proof. intros (a & b & c & d & _). split; [exact a|]. auto. Qed.
Lemma rv_get h e r : rv h e = Some r -> exists x, get h e = Ok x /\ e_reverse x = Some r /\ tg h e = e_target x.
Proof. unfold rv, get, tg. destruct (edges_of h e) as [x|]; [eauto|discriminate]. Qed.

Lemma remove_ok h f e v r t : whole h f -> In e (f v) -> rv h e = Some r -> tg h e = Some t ->
  exists h', remove_edge_pair h e = Ok h' /\ whole h' (fun u => rem r (rem e (f u))) /\
    edges_of h' e = None /\ edges_of h' r = None /\
    (forall x, x <> e -> x <> r -> rv h' x = rv h x /\ tg h' x = tg h x).
Proof.
  intros W he hr ht. pose proof W as (_ & _ & _ & c4 & c5). destruct (c5 v e he) as (r' & t' & k1 & k2 & k3 & k4 & k5 & k6).
  assert (r' = r) as -> by congruence. assert (t' = t) as -> by congruence. clear k1 k2.
  destruct (rv_get _ _ _ hr) as (x & gx & rx & tx). destruct (rv_get _ _ _ k5) as (xr & gxr & rxr & txr).
  unfold remove_edge_pair. rewrite gx. cbn [obind]. rewrite rx. cbn [deref obind]. rewrite gxr. cbn [obind].
  rewrite <- tx, ht. cbn [deref obind]. rewrite <- txr, k6. cbn [deref obind].
  destruct (unlink_ok h f e v (whole_laid _ _ W) he) as (h1 & u1 & L1 & s1). rewrite u1. cbn [obind].
  assert (he1 : In r (rem e (f t))) by (apply rem_in; auto).
  destruct (unlink_ok h1 _ r t L1 he1) as (h2 & u2 & L2 & s2). rewrite u2. cbn [obind].
  pose proof (same_trans _ _ _ s1 s2) as s.
  assert (ge : edges_of h2 e <> None).
  { intros z. apply (s e) in z. unfold get in gx. rewrite z in gx. discriminate gx. }
  assert (gr : edges_of h2 r <> None).
  { intros z. apply (s r) in z. unfold get in gxr. rewrite z in gxr. discriminate gxr. }
  unfold free_edge. unfold get at 1. destruct (edges_of h2 e) as [ye|] eqn:eye; [|contradiction]. cbn [obind].
  unfold get. cbn [set_edge edges_of]. destruct (Nat.eqb_spec r e); [contradiction|].
  destruct (edges_of h2 r) as [yr|] eqn:eyr; [|contradiction]. cbn [obind]. eexists. split; [reflexivity|].
  set (h4 := set_edge (set_edge h2 e None) r None).
  assert (O : forall y, y <> e -> y <> r -> edges_of h4 y = edges_of h2 y).
  { intros y y1 y2. cbn [h4 set_edge edges_of]. destruct (Nat.eqb_spec y r); [contradiction|].
    destruct (Nat.eqb_spec y e); [contradiction|reflexivity]. }
  assert (RT : forall y, y <> e -> y <> r -> rv h4 y = rv h y /\ tg h4 y = tg h y).
  { intros y y1 y2. destruct (s y) as (z1 & z2 & _). rewrite <- z1, <- z2. unfold rv, tg. now rewrite (O y y1 y2). }
  destruct L2 as (d1 & d2 & d3 & d4). split.
  - split; [|split; [|split; [|split]]].
    + intros u. eapply circle_ext; [|exact (d1 u)]. intros y hy. apply rem_in in hy. destruct hy as (hy & y2).
      apply rem_in in hy. unfold nx, pv. rewrite (O y) by tauto. auto.
    + exact d2.
    + exact d3.
    + exact d4.
    + intros u y hy. apply rem_in in hy. destruct hy as (hy & y2). apply rem_in in hy. destruct hy as (hy & y1).
      destruct (c5 u y hy) as (s' & t' & m1 & m2 & m3 & m4 & m5 & m6). destruct (RT y y1 y2) as (-> & ->).
      assert (n1 : s' <> e) by (intros ->; congruence). assert (n2 : s' <> r) by (intros ->; congruence).
      exists s', t'. destruct (RT s' n1 n2) as (-> & ->). split; [exact m1|]. split; [exact m2|]. split; [exact m3|].
      split; [|auto]. apply rem_in. split; [|exact n2]. apply rem_in. auto.
  - split; [|split; [|exact RT]].
    + cbn [h4 set_edge edges_of]. destruct (Nat.eqb_spec e r); [reflexivity|]. now rewrite Nat.eqb_refl.
    + cbn [h4 set_edge edges_of]. now rewrite Nat.eqb_refl.
Qed.

Definition not_to (h : hull) (v x : nat) : bool := match tg h x with Some w => negb (w =? v) | None => true end.
Lemma filter_rem (P Q : nat -> bool) r l : P r = false -> (forall x, In x l -> x <> r -> Q x = P x) -> filter Q (rem r l) = filter P l.
Proof.
  intros hr. induction l as [|x l ih]; intros h; [reflexivity|]. unfold rem. cbn [remove filter].
  destruct (Nat.eq_dec r x) as [<-|n].
  - rewrite hr. apply ih. intros y hy. apply h. now right.
  - cbn [filter]. rewrite h by (try (now left); congruence). fold (rem r l).
    rewrite ih by (intros y hy; apply h; now right). reflexivity.
Qed.
Lemma filter_all (P : nat -> bool) l : (forall x, In x l -> P x = true) -> filter P l = l.
Proof.
  induction l as [|x l ih]; intros h; [reflexivity|]. cbn [filter]. rewrite h by now left. f_equal. apply ih.
  intros y hy. apply h. now right.
Qed.
Lemma remove_all_ok fuel : forall h f v, whole h f -> length (f v) <= fuel ->
  exists h' ts g, remove_all fuel h v = Ok (h', ts) /\ whole h' g /\ v_edges h' v = None /\ g v = [] /\
    (forall u, u <> v -> g u = filter (not_to h v) (f u)) /\
    (forall w, In w ts <-> exists e, In e (f v) /\ tg h e = Some w) /\
    (forall u x, In x (g u) -> rv h' x = rv h x /\ tg h' x = tg h x).
Proof.
  induction fuel as [|fuel ih]; intros h f v W hl; pose proof W as (_ & c2 & _ & c4 & c5); pose proof (c2 v) as V;
    cbn [remove_all]; destruct (v_edges h v) as [e|] eqn:ve.
  1: { destruct (f v); [destruct V|cbn [length] in hl; lia]. }
  2: { destruct (c5 v e V) as (r & t & k1 & k2 & k3 & k4 & k5 & k6).
    destruct (rv_get _ _ _ k1) as (x & gx & rx & tx). rewrite gx. cbn [obind]. rewrite <- tx, k2. cbn [deref obind].
    destruct (remove_ok h f e v r t W V k1 k2) as (h1 & u1 & W1 & _ & _ & RT). rewrite u1. cbn [obind].
    destruct (ih h1 _ v W1) as (h' & ts & g & a1 & a2 & a3 & a4 & a5 & a6 & a7).
    { cbn beta. unfold rem at 1. pose proof (remove_length_le Nat.eq_dec (rem e (f v)) r).
      pose proof (remove_length_lt Nat.eq_dec (f v) e V). unfold rem in *. lia. }
    rewrite a1. cbn [obind]. exists h', (t :: ts), g. split; [reflexivity|]. split; [exact a2|]. split; [exact a3|].
    split; [exact a4|]. split; [|split].
    - intros u hu. rewrite a5 by exact hu. rewrite (rem_out e).
      2: { intros z. apply hu. exact (c4 _ _ _ z V). }
      apply filter_rem.
      + unfold not_to. rewrite k6, Nat.eqb_refl. reflexivity.
      + intros y hy n. unfold not_to. destruct (RT y) as (_ & ->); [|exact n|reflexivity]. intros ->. apply hu. exact (c4 _ _ _ hy V).
    - intros w. cbn [In]. rewrite a6. split.
      + intros [<-|(y & hy & ty)]; [eauto|]. apply rem_in in hy. destruct hy as (hy & y1). apply rem_in in hy. destruct hy as (hy & y2).
        exists y. split; [exact hy|]. destruct (RT y y2 y1) as (_ & <-). exact ty.
      + intros (y & hy & ty). destruct (Nat.eq_dec y e) as [->|y2]; [left; congruence|].
        destruct (Nat.eq_dec y r) as [->|y1].
        * left. assert (t = v) by exact (c4 _ _ _ k4 hy). congruence.
        * right. exists y. destruct (RT y y2 y1) as (_ & ->). split; [|exact ty]. apply rem_in. split; [|exact y1]. apply rem_in. auto.
    - intros u y hy. destruct (a7 u y hy) as (-> & ->). apply RT.
      + intros ->. destruct (Nat.eq_dec u v) as [->|nu]; [rewrite a4 in hy; destruct hy|].
        rewrite a5 in hy by exact nu. apply filter_In in hy. destruct hy as (hy & _). apply rem_in in hy. destruct hy as (hy & _).
        apply rem_in in hy. tauto.
      + intros ->. destruct (Nat.eq_dec u v) as [->|nu]; [rewrite a4 in hy; destruct hy|].
        rewrite a5 in hy by exact nu. apply filter_In in hy. destruct hy as (hy & _). apply rem_in in hy. tauto. }
  all: exists h, [], f; split; [reflexivity|]; split; [exact W|]; split; [exact ve|]; split; [exact V|]; split; [|split; [|auto]].
  1,3: intros u hu; symmetry; apply filter_all; intros x hx; unfold not_to.
  all: try (intros w; cbn [In]; split; [intros []|]; intros (y & hy & _); rewrite V in hy; destruct hy).
  all: destruct (c5 u x hx) as (r & t & k1 & k2 & k3 & k4 & _); rewrite k2; destruct (Nat.eqb_spec t v) as [->|]; [|reflexivity];
    rewrite V in k4; destruct k4.
Qed.

Lemma link_self h e x r xr t : edges_of h e = Some x -> e_reverse x = Some r -> edges_of h r = Some xr -> e_target xr = Some t ->
  exists h', link h e e = Ok h' /\ v_edges h' = v_edges h /\ edges_of h' e = Some (E (Some e) (Some e) (Some r) (e_target x)) /\
    forall y, y <> e -> edges_of h' y = edges_of h y.
Proof.
  intros h1 h2 h3 h4. unfold link, get. rewrite h1. cbn [obind]. rewrite h2. cbn [deref obind]. rewrite h3. cbn [obind].
  repeat (rewrite ?h1, ?h2, ?h3; cbn [deref obind]). rewrite h4, Nat.eqb_refl.
  unfold upd, get. rewrite ?h1. cbn [obind set_edge edges_of]. rewrite Nat.eqb_refl. cbn [obind]. eexists. split; [reflexivity|].
  split; [reflexivity|]. cbn [set_edge edges_of]. rewrite Nat.eqb_refl. split.
  - unfold with_prev, with_next. cbn [e_next e_prev e_reverse e_target]. now rewrite h2.
  - intros y hy. destruct (Nat.eqb_spec y e); [contradiction|reflexivity].
Qed.
Lemma pair_ok h f e r v w : whole h f -> edges_of h e = None -> edges_of h r = None -> e <> r -> v <> w -> f v = [] -> f w = [] ->
  exists h', pair_hull h e r v w = Ok h' /\
    whole h' (fun u => if u =? v then [e] else if u =? w then [r] else f u) /\
    rv h' e = Some r /\ tg h' e = Some w /\
    (forall x, x <> e -> x <> r -> edges_of h' x = edges_of h x).
Proof.
  intros (c1 & c2 & c3 & c4 & c5) he hr ne nv fv fw. unfold pair_hull. set (h0 := new_edge_pair h e r v w).
  assert (E1 : edges_of h0 e = Some (E None None (Some r) (Some w))).
  { unfold h0, new_edge_pair. cbn [set_edge edges_of]. destruct (Nat.eqb_spec e r); [contradiction|]. now rewrite Nat.eqb_refl. }
  assert (E2 : edges_of h0 r = Some (E None None (Some e) (Some v))).
  { unfold h0, new_edge_pair. cbn [set_edge edges_of]. now rewrite Nat.eqb_refl. }
  assert (E3 : forall y, y <> e -> y <> r -> edges_of h0 y = edges_of h y).
  { intros y y1 y2. unfold h0, new_edge_pair. cbn [set_edge edges_of]. destruct (Nat.eqb_spec y r); [contradiction|].
    destruct (Nat.eqb_spec y e); [contradiction|reflexivity]. }
  destruct (link_self h0 e _ r _ v E1 eq_refl E2 eq_refl) as (h1 & l1 & l2 & l3 & l4). rewrite l1. cbn [obind].
  cbn [e_target] in l3. unfold get at 1. cbn [set_vertex edges_of]. rewrite l3. cbn [obind e_reverse deref].
  assert (ner : r <> e) by congruence. pose proof (l4 r ner) as l5. rewrite E2 in l5.
  destruct (link_self (set_vertex h1 v (Some e)) r _ e _ w l5 eq_refl l3 eq_refl) as (h3 & m1 & m2 & m3 & m4).
  rewrite m1. cbn [obind]. eexists. split; [reflexivity|]. set (h4 := set_vertex h3 w (Some r)).
  cbn [e_target] in m3. cbn [set_vertex edges_of] in m4. cbn [set_vertex v_edges] in m2.
  assert (F1 : edges_of h4 e = Some (E (Some e) (Some e) (Some r) (Some w))) by (cbn [h4 set_vertex edges_of]; rewrite m4; auto).
  assert (F2 : edges_of h4 r = Some (E (Some r) (Some r) (Some e) (Some v))) by exact m3.
  assert (F3 : forall y, y <> e -> y <> r -> edges_of h4 y = edges_of h y).
  { intros y y1 y2. cbn [h4 set_vertex edges_of]. rewrite m4, l4, E3 by assumption. reflexivity. }
  assert (NI : forall u y, In y (f u) -> y <> e /\ y <> r).
  { intros u y hy. destruct (c5 u y hy) as (s & t & k1 & _). unfold rv in k1.
    split; intros ->; [rewrite he in k1|rewrite hr in k1]; discriminate k1. }
  split; [|split; [|split; [|exact F3]]].
  - split; [|split; [|split; [|split]]].
    + intros u. destruct (Nat.eqb_spec u v) as [->|n1]; [|destruct (Nat.eqb_spec u w) as [->|n2]].
      * cbn [circle walk]. unfold nx, pv. rewrite F1. auto.
      * cbn [circle walk]. unfold nx, pv. rewrite F2. auto.
      * eapply circle_ext; [|exact (c1 u)]. intros y hy. destruct (NI u y hy) as (y1 & y2). unfold nx, pv. rewrite F3 by assumption. auto.
    + intros u. cbn [h4 set_vertex v_edges]. rewrite m2. cbn beta.
      destruct (Nat.eqb_spec u w) as [->|n2].
      * destruct (Nat.eqb_spec w v); [congruence|now left].
      * destruct (Nat.eqb_spec u v) as [->|n1]; [now left|]. rewrite l2. exact (c2 u).
    + intros u. destruct (u =? v); [|destruct (u =? w); [|apply c3]]; (constructor; [intros []|constructor]).
    + intros u1 u2 y h1' h2'.
      destruct (Nat.eqb_spec u1 v), (Nat.eqb_spec u2 v), (Nat.eqb_spec u1 w), (Nat.eqb_spec u2 w); subst; try congruence;
        cbn [In] in h1', h2';
        repeat match goal with hh : _ \/ False |- _ => destruct hh as [<-|[]] end; try congruence;
        try (exfalso; (match goal with hh : In _ (f _) |- _ => destruct (NI _ _ hh); congruence end)).
      exact (c4 _ _ _ h1' h2').
    + intros u y hy. destruct (Nat.eqb_spec u v) as [->|n1]; [|destruct (Nat.eqb_spec u w) as [->|n2]].
      * destruct hy as [<-|[]]. exists r, w. unfold rv, tg. rewrite F1, F2. cbn [e_reverse e_target].
        rewrite Nat.eqb_refl. destruct (Nat.eqb_spec w v); [congruence|]. cbn [In]. auto 10.
      * destruct hy as [<-|[]]. exists e, v. unfold rv, tg. rewrite F1, F2. cbn [e_reverse e_target].
        rewrite Nat.eqb_refl. cbn [In]. auto 10.
      * destruct (NI u y hy) as (y1 & y2). destruct (c5 u y hy) as (s & t & k1 & k2 & k3 & k4 & k5 & k6).
        destruct (NI t s k4) as (s1 & s2). exists s, t. unfold rv, tg. rewrite !F3 by assumption.
        split; [exact k1|]. split; [exact k2|]. split; [exact k3|]. split; [|auto].
        destruct (Nat.eqb_spec t v) as [->|]; [rewrite fv in k4; destruct k4|].
        destruct (Nat.eqb_spec t w) as [->|]; [rewrite fw in k4; destruct k4|exact k4].
  - unfold rv. now rewrite F1.
  - unfold tg. now rewrite F1.
Qed.
