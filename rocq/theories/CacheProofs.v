(** * Cache: invariant and step lemmas *)
From Coq Require Import List Arith Bool Lia Permutation.
From Verif Require Import Common CacheModel.
Import ListNotations.

Section ListFacts.
  Lemma memb_In s l : memb s l = true <-> In s l.
  Proof.
    unfold memb. rewrite existsb_exists. split.
    - intros (x & H & E). apply Nat.eqb_eq in E. congruence.
    - intros H. exists s. split; auto. apply Nat.eqb_refl.
  Qed.
  Lemma forallb_filter_id {A} (p : A -> bool) l : forallb p l = true -> filter p l = l.
  Proof.
    induction l as [|a l IH]; cbn; auto. rewrite andb_true_iff. intros [-> H]. rewrite IH; auto.
  Qed.
  Lemma remove_first_filter s l : NoDup l -> remove_first s l = filter (fun a => negb (a =? s)) l.
  Proof.
    induction l as [|a l IH]; intros Hn; cbn; auto. inversion Hn as [|? ? Ha Hl]; subst.
    destruct (a =? s) eqn:E; cbn.
    - apply Nat.eqb_eq in E. subst. symmetry. apply forallb_filter_id. apply forallb_forall. intros x Hx.
      apply negb_true_iff, Nat.eqb_neq. intros ->. contradiction.
    - rewrite IH; auto.
  Qed.
  Lemma remove_first_In s a l : In a (remove_first s l) -> In a l.
  Proof.
    induction l as [|b l IH]; cbn; auto. destruct (b =? s); auto. cbn. intros [H|H]; auto.
  Qed.
  Lemma remove_first_keep s a l : In a l -> a <> s -> In a (remove_first s l).
  Proof.
    induction l as [|b l IH]; cbn; auto. intros [->|H] Hn.
    - destruct (Nat.eqb_spec a s); [contradiction|left; reflexivity].
    - destruct (b =? s); [exact H|right; auto].
  Qed.
  Lemma filter_map {A B} (p : B -> bool) (f : A -> B) l : filter p (map f l) = map f (filter (fun a => p (f a)) l).
  Proof. induction l as [|a l IH]; cbn; auto. destruct (p (f a)); cbn; rewrite IH; reflexivity. Qed.
  Lemma filter_filter {A} (p q : A -> bool) l : filter p (filter q l) = filter (fun a => p a && q a) l.
  Proof.
    induction l as [|a l IH]; cbn; auto. destruct (q a) eqn:Eq; cbn; [destruct (p a); cbn; rewrite IH; reflexivity|].
    rewrite andb_false_r. exact IH.
  Qed.
  Lemma NoDup_map_filter {A B} (f : A -> B) (p : A -> bool) l : NoDup (map f l) -> NoDup (map f (filter p l)).
  Proof.
    induction l as [|a l IH]; cbn; auto. intros Hn. inversion Hn; subst. destruct (p a); cbn; auto.
    constructor; auto. intros Hin. apply in_map_iff in Hin as (b & E & Hb). apply filter_In in Hb as [Hb _].
    apply H1. apply in_map_iff. exists b. auto.
  Qed.
  Lemma NoDup_map_In {A B} (f : A -> B) l a b : NoDup (map f l) -> In a l -> In b l -> f a = f b -> a = b.
  Proof.
    induction l as [|c l IH]; cbn; [tauto|]. intros Hn. inversion Hn as [|? ? Hc Hl]; subst.
    intros [->|Ha] [->|Hb] E; auto.
    - exfalso. apply Hc. apply in_map_iff. exists b. auto.
    - exfalso. apply Hc. apply in_map_iff. exists a. auto.
  Qed.
End ListFacts.

Ltac conj := repeat match goal with |- _ /\ _ => split end.

Section CacheP.
  Context {K : Type}.
  Variable keqb : K -> K -> bool.
  Hypothesis keqb_spec : forall a b, keqb a b = true <-> a = b.
  Notation cache := (cache K).
  Notation kfind := (kfind keqb).
  Notation kerase := (kerase keqb).
  Notation kset := (kset keqb).

  Lemma keqb_refl k : keqb k k = true. Proof. apply keqb_spec. reflexivity. Qed.
  Lemma keqb_false a b : keqb a b = false <-> a <> b.
  Proof. rewrite <- not_true_iff_false, keqb_spec. tauto. Qed.

  (** [e] is the list of (key, slot) entries, most recently used first *)
  Record wf (c : cache) (e : list (K * nat)) : Prop := {
    wf_cap : 0 < c_cap c;
    wf_lru : c_lru c = map snd e;
    wf_slots : NoDup (map snd e);
    wf_keys : NoDup (map fst e);
    wf_key : forall k s, In (k, s) e -> c_key c s = Some k;
    wf_asg : forall s, c_assigned c s = true <-> In s (map snd e);
    wf_map : forall k s, In (k, s) (c_map c) <-> In (k, s) e;
    wf_mapkeys : NoDup (map fst (c_map c));
    wf_bound : forall s, In s (map snd e) -> s < c_cap c;
    wf_out : forall s, c_out c s = true -> s < c_cap c /\ c_assigned c s = false;
    wf_free : forall s, s < c_cap c -> c_assigned c s = false -> c_out c s = false -> In s (c_free c);
    wf_freeb : forall s, In s (c_free c) -> s < c_cap c
  }.

  Definition avail (c : cache) (s : nat) : Prop := s < c_cap c /\ c_assigned c s = false /\ c_out c s = false.
  (** entries without key [k] / without slot [s] *)
  Definition nokey (k : K) (e : list (K * nat)) := filter (fun p => negb (keqb k (fst p))) e.
  Definition noslot (s : nat) (e : list (K * nat)) := filter (fun p => negb (snd p =? s)) e.

  Lemma kfind_In k m s : NoDup (map fst m) -> kfind k m = Some s <-> In (k, s) m.
  Proof.
    induction m as [|[k' s'] m IH]; cbn; [split; [discriminate|tauto]|]. intros Hn. inversion Hn as [|? ? Hk Hm]; subst.
    destruct (keqb k k') eqn:E.
    - apply keqb_spec in E. subst k'. split; [intros [= ->]; auto|]. intros [[= ->]|H]; auto.
      exfalso. apply Hk. apply in_map_iff. exists (k, s). auto.
    - apply keqb_false in E. rewrite IH by auto. split; auto. intros [[= -> _]|H]; [congruence|auto].
  Qed.
  Lemma kfind_None k m : kfind k m = None <-> ~ In k (map fst m).
  Proof.
    induction m as [|[k' s'] m IH]; cbn; [tauto|].
    destruct (keqb k k') eqn:E.
    - apply keqb_spec in E. split; [discriminate|]. intros H. exfalso. apply H. left. congruence.
    - apply keqb_false in E. rewrite IH. split; intros H; [intros [H'|H']; congruence|tauto].
  Qed.
  Lemma In_kerase k k' s m : In (k', s) (kerase k m) <-> In (k', s) m /\ k' <> k.
  Proof.
    unfold CacheModel.kerase. rewrite filter_In, negb_true_iff, keqb_false. cbn. split; intros [A B]; auto.
  Qed.
  Lemma In_nokey k k' s e : In (k', s) (nokey k e) <-> In (k', s) e /\ k' <> k.
  Proof. unfold nokey. rewrite filter_In, negb_true_iff, keqb_false. cbn. split; intros [A B]; auto. Qed.
  Lemma In_noslot s k' s' e : In (k', s') (noslot s e) <-> In (k', s') e /\ s' <> s.
  Proof. unfold noslot. rewrite filter_In, negb_true_iff, Nat.eqb_neq. cbn. tauto. Qed.

  Lemma wf_find c e k s : wf c e -> kfind k (c_map c) = Some s <-> In (k, s) e.
  Proof. intros W. rewrite kfind_In by apply W. apply W. Qed.
  Lemma wf_find_None c e k : wf c e -> kfind k (c_map c) = None <-> ~ In k (map fst e).
  Proof.
    intros W. rewrite kfind_None. split; intros H Hi; apply H; apply in_map_iff in Hi as ([k' s] & E & Hi); cbn in E; subst k';
      apply in_map_iff; exists (k, s); split; auto; apply (wf_map _ _ W); auto.
  Qed.
  Lemma in_slots (k : K) (s : nat) e : In (k, s) e -> In s (map snd e).
  Proof. intros H. apply in_map_iff. exists (k, s). auto. Qed.
  Lemma in_keys (k : K) (s : nat) e : In (k, s) e -> In k (map fst e).
  Proof. intros H. apply in_map_iff. exists (k, s). auto. Qed.

  Lemma wf_new n : wf (cache_new n) [].
  Proof.
    unfold cache_new. set (cap := if n =? 0 then 1 else n).
    assert (0 < cap) by (unfold cap; destruct (Nat.eqb_spec n 0); lia).
    constructor; cbn; try tauto; try constructor; try discriminate; auto.
    - intros. rewrite <- in_rev. apply in_seq. lia.
    - intros s Hs. rewrite <- in_rev in Hs. apply in_seq in Hs. lia.
  Qed.

  Lemma remove_first_slots s e : NoDup (map snd e) -> remove_first s (map snd e) = map snd (noslot s e).
  Proof. intros H. rewrite remove_first_filter by auto. exact (filter_map (fun a => negb (a =? s)) snd e). Qed.

  Lemma touch_wf c e k s : wf c e -> In (k, s) e ->
    exists c', touch s c = Ok c' /\ wf c' ((k, s) :: noslot s e) /\ c_cap c' = c_cap c /\ c_out c' = c_out c.
  Proof.
    intros W Hi. pose proof (in_slots _ _ _ Hi) as Hs. pose proof (proj2 (wf_asg _ _ W s) Hs) as Ha.
    unfold touch. rewrite (proj2 (Nat.ltb_lt _ _) (wf_bound _ _ W s Hs)), Ha. cbn [negb].
    rewrite (wf_lru _ _ W), (proj2 (memb_In s _) Hs), remove_first_slots by apply W.
    eexists. split; [reflexivity|]. split; [|auto]. unfold with_lru.
    assert (Hm : forall k' s', In (k', s') ((k, s) :: noslot s e) <-> In (k', s') e).
    { intros k' s'. cbn. rewrite In_noslot. split; [intros [[= -> ->]|[H _]]; auto|].
      intros H. destruct (Nat.eq_dec s' s) as [->|Hn]; [left|right; auto].
      f_equal. assert (E : (k', s) = (k, s)) by (eapply (NoDup_map_In snd); [apply W|exact H|exact Hi|reflexivity]).
      congruence. }
    assert (Hsl : forall s', In s' (map snd ((k, s) :: noslot s e)) <-> In s' (map snd e)).
    { intros s'. rewrite !in_map_iff. split; intros ([k0 s0] & E & Hin); exists (k0, s0); (split; [exact E|apply Hm; exact Hin]). }
    constructor; cbn [c_cap c_map c_key c_assigned c_out c_lru c_free]; try apply W.
    - reflexivity.
    - cbn. constructor; [|apply NoDup_map_filter, W]. intros H. apply in_map_iff in H as ([k' s'] & E & H). cbn in E. subst s'.
      apply In_noslot in H as [_ H]. congruence.
    - cbn. constructor; [|apply NoDup_map_filter, W]. intros H. apply in_map_iff in H as ([k' s'] & E & H). cbn in E. subst k'.
      apply In_noslot in H as [H Hn]. apply Hn.
      assert (E : (k, s') = (k, s)) by (eapply (NoDup_map_In fst); [apply W|exact H|exact Hi|reflexivity]). congruence.
    - intros k' s' H. apply Hm in H. apply W; exact H.
    - intros s'. rewrite Hsl. apply W.
    - intros k' s'. rewrite Hm. apply W.
    - intros s' H. apply Hsl in H. apply W; exact H.
  Qed.

  Lemma nokey_noslot c e k s : wf c e -> In (k, s) e -> nokey k e = noslot s e.
  Proof.
    intros W Hi. unfold nokey, noslot. apply filter_ext_in. intros [k' s'] H. cbn. f_equal.
    apply eq_true_iff_eq. rewrite keqb_spec, Nat.eqb_eq. split; intros E; subst.
    - assert (E : (k', s') = (k', s)) by (eapply (NoDup_map_In fst); [apply W|exact H|exact Hi|reflexivity]). congruence.
    - assert (E : (k', s) = (k, s)) by (eapply (NoDup_map_In snd); [apply W|exact H|exact Hi|reflexivity]). congruence.
  Qed.

  Lemma drop_wf c e k s : wf c e -> In (k, s) e ->
    exists c', dropMapping keqb s c = Ok c' /\ wf c' (noslot s e) /\ c_cap c' = c_cap c /\ c_out c' = c_out c /\
               c_assigned c' s = false /\ c_out c' s = false.
  Proof.
    intros W Hi. pose proof (in_slots _ _ _ Hi) as Hs. pose proof (proj2 (wf_asg _ _ W s) Hs) as Ha.
    pose proof (wf_bound _ _ W s Hs) as Hb.
    assert (Ho : c_out c s = false).
    { destruct (c_out c s) eqn:E; auto. apply W in E as [_ E]. congruence. }
    unfold dropMapping. rewrite (wf_key _ _ W _ _ Hi). unfold removeFromLru, with_map.
    cbn [c_cap c_map c_key c_assigned c_out c_lru c_free].
    rewrite (proj2 (Nat.ltb_lt _ _) Hb), Ha. cbn [negb].
    rewrite (wf_lru _ _ W), (proj2 (memb_In s _) Hs), remove_first_slots by apply W.
    unfold with_lru, with_assigned, with_free. cbn [obind c_cap c_map c_key c_assigned c_out c_lru c_free]. rewrite Ho.
    eexists. split; [reflexivity|]. cbn [c_cap c_out c_assigned].
    split; [|unfold fupd; rewrite Nat.eqb_refl; auto].
    assert (Hsl : forall s', In s' (map snd (noslot s e)) <-> In s' (map snd e) /\ s' <> s).
    { intros s'. rewrite !in_map_iff. split.
      - intros ([k0 s0] & E & Hin). apply In_noslot in Hin as [H1 H2]. cbn in E. subst s0. split; auto. exists (k0, s'). auto.
      - intros [([k0 s0] & E & Hin) Hne]. cbn in E. subst s0. exists (k0, s'). split; auto. apply In_noslot. auto. }
    constructor; cbn [c_cap c_map c_key c_assigned c_out c_lru c_free]; try apply W.
    - reflexivity.
    - apply NoDup_map_filter, W.
    - apply NoDup_map_filter, W.
    - intros k' s' H. apply In_noslot in H as [H _]. apply W; exact H.
    - intros s'. rewrite Hsl. unfold fupd. destruct (Nat.eqb_spec s' s) as [->|Hn].
      + split; [discriminate|tauto].
      + rewrite (wf_asg _ _ W). tauto.
    - intros k' s'. rewrite In_kerase, In_noslot, (wf_map _ _ W). rewrite <- In_noslot, <- (nokey_noslot _ _ _ _ W Hi), In_nokey. tauto.
    - apply NoDup_map_filter, W.
    - intros s' H. apply Hsl in H as [H _]. apply W; exact H.
    - intros s' H. apply W in H as [H1 H2]. split; auto. unfold fupd. destruct (s' =? s); auto.
    - intros s' H1 H2 H3. unfold fupd in H2. destruct (Nat.eqb_spec s' s) as [->|Hn]; [left; auto|right].
      apply (wf_free _ _ W); auto.
    - intros s' [<-|H]; auto. apply (wf_freeb _ _ W); exact H.
  Qed.

  Lemma evict_wf c e k s : wf c e -> In (k, s) e ->
    exists c', evictSlot keqb s c = Ok c' /\ wf c' (noslot s e) /\ c_cap c' = c_cap c /\ c_out c' = c_out c /\
               c_assigned c' s = false /\ c_out c' s = false.
  Proof.
    intros W Hi. pose proof (in_slots _ _ _ Hi) as Hs. unfold evictSlot.
    rewrite (proj2 (Nat.ltb_lt _ _) (wf_bound _ _ W s Hs)), (proj2 (wf_asg _ _ W s) Hs). cbn [negb].
    apply drop_wf with k; auto.
  Qed.

  Lemma popFree_spec l (c : cache) : 
    match popFree l c with
    | (Some s, r) => In s l /\ c_assigned c s = false /\ c_out c s = false /\
        (forall x, In x r -> In x l) /\
        (forall x, In x l -> c_assigned c x = false -> c_out c x = false -> x = s \/ In x r)
    | (None, r) => r = [] /\ forall x, In x l -> c_assigned c x = true \/ c_out c x = true
    end.
  Proof.
    induction l as [|a l IH]; cbn; [split; [reflexivity|tauto]|].
    destruct (negb (c_assigned c a) && negb (c_out c a)) eqn:E.
    - apply andb_true_iff in E as [A B]. apply negb_true_iff in A, B. conj; auto. intros x [->|H]; auto.
    - assert (Ha : c_assigned c a = true \/ c_out c a = true).
      { apply andb_false_iff in E as [A|A]; apply negb_false_iff in A; auto. }
      destruct (popFree l c) as [[s|] r].
      + destruct IH as (A & B & C & D & F). conj; auto. intros x [->|H] X Y; auto. destruct Ha; congruence.
      + destruct IH as [-> IH]. split; auto. intros x [<-|H]; auto.
  Qed.

  (** [acquireSlot] on a well-formed cache *)
  Lemma acquire_wf c e : wf c e ->
    exists c' s, acquireSlot keqb c = Ok (c', Some s) /\
      (forall x, c_out c' x = fupd (c_out c) s true x) /\ c_assigned c' s = false /\ s < c_cap c' /\
      ((avail c s /\ wf c' e /\ c_cap c' = c_cap c) \/
       ((forall x, ~ avail c x) /\ exists k e', e = e' ++ [(k, s)] /\ wf c' e' /\ c_cap c' = c_cap c) \/
       ((forall x, ~ avail c x) /\ e = [] /\ c_cap c <= s /\ wf c' [] /\ c_cap c' = c_cap c * 2)).
  Proof.
    intros W. unfold acquireSlot. pose proof (popFree_spec (c_free c) c) as Hp.
    destruct (popFree (c_free c) c) as [[s|] r].
    - destruct Hp as (Hin & Ha & Ho & Hr & Hr2). pose proof (wf_freeb _ _ W _ Hin) as Hb.
      eexists _, s. split; [reflexivity|]. cbn. split; [reflexivity|]. split; auto. split; auto. left.
      split; [unfold avail; auto|]. split; [|reflexivity].
      constructor; cbn [c_cap c_map c_key c_assigned c_out c_lru c_free with_out with_free]; try apply W.
      + intros x. unfold fupd. destruct (Nat.eqb_spec x s) as [->|Hn]; [auto|apply W].
      + intros x H1 H2 H3. unfold fupd in H3. destruct (Nat.eqb_spec x s) as [->|Hn]; [discriminate|].
        destruct (Hr2 x) as [?|?]; auto; [apply (wf_free _ _ W); auto|congruence].
      + intros x Hx. apply (wf_freeb _ _ W). auto.
    - destruct Hp as [-> Hp].
      assert (Hno : forall x, ~ avail c x).
      { intros x (A & B & C). destruct (Hp x) as [H|H]; [apply (wf_free _ _ W); auto| |]; congruence. }
      assert (W0 : wf (with_free c []) e).
      { constructor; cbn [c_cap c_map c_key c_assigned c_out c_lru c_free with_free]; try apply W.
        - intros s H1 H2 H3. exfalso. apply (Hno s). unfold avail. auto.
        - intros s []. }
      cbn [c_lru with_free]. rewrite (wf_lru _ _ W), <- map_rev.
      destruct (rev e) as [|[k s] re] eqn:Er; cbn [map snd].
      + assert (e = []) by (rewrite <- (rev_involutive e), Er; reflexivity). subst e.
        pose proof (wf_cap _ _ W) as Hc. cbn [c_cap with_free].
        destruct (Nat.eqb_spec (c_cap c) 0) as [E|_]; [lia|].
        unfold growPool. cbn [c_cap with_free]. destruct (Nat.leb_spec (c_cap c * 2) (c_cap c)); [lia|].
        cbn [c_free]. rewrite app_nil_r.
        set (c2 := {| c_cap := c_cap c * 2; c_map := _; c_key := _; c_assigned := _; c_out := _; c_lru := _; c_free := _ |}).
        assert (Hc2 : forall x, c_assigned c2 x = false).
        { intros x. unfold c2. cbn -[Nat.ltb]. destruct (x <? c_cap c); auto. destruct (c_assigned c x) eqn:E; auto. apply (wf_asg _ _ W) in E. destruct E. }
        assert (Ho2 : forall x, c_cap c <= x -> c_out c2 x = false).
        { intros x Hx. unfold c2. cbn -[Nat.ltb]. destruct (Nat.ltb_spec x (c_cap c)); [lia|reflexivity]. }
        pose proof (popFree_spec (c_free c2) c2) as Hq.
        assert (Hsq : forall x, In x (c_free c2) <-> c_cap c <= x < c_cap c * 2).
        { intros x. unfold c2. cbn [c_free]. rewrite <- in_rev, in_seq. lia. }
        change (popFree _ c2) with (popFree (c_free c2) c2).
        destruct (popFree (c_free c2) c2) as [[s|] r].
        * destruct Hq as (Hin & Ha & Ho & Hr & Hr2). apply Hsq in Hin.
          assert (Heq : forall x, c_out c2 x = c_out c x).
          { intros x. unfold c2. cbn -[Nat.ltb]. destruct (Nat.ltb_spec x (c_cap c)); auto. destruct (c_out c x) eqn:E; auto. apply (wf_out _ _ W) in E as [E _]. lia. }
          eexists _, s. split; [reflexivity|].
          split; [intros x; cbn [c_out with_out with_free]; unfold fupd; rewrite Heq; reflexivity|].
          split; [apply Hc2|]. split; [cbn; lia|]. right. right.
          split; [exact Hno|]. split; [reflexivity|]. split; [lia|]. split; [|reflexivity].
          constructor; cbn [c_cap c_map c_key c_assigned c_out c_lru c_free with_out with_free map];
            try apply W; try solve [intros ? []].
          -- cbn. lia.
          -- intros x. rewrite Hc2. split; [discriminate|intros []].
          -- intros x. unfold fupd. destruct (Nat.eqb_spec x s) as [->|Hn]; [split; [cbn; lia|apply Hc2]|].
             rewrite Heq. intros Hx. split; [apply (wf_out _ _ W) in Hx as [Hx _]; cbn; lia|apply Hc2].
          -- intros x H1 H2 H3. unfold fupd in H3. destruct (Nat.eqb_spec x s) as [->|Hn]; [discriminate|].
             rewrite Heq in H3. cbn [c_cap c2] in H1.
             assert (Hx : c_cap c <= x).
             { destruct (Nat.le_gt_cases (c_cap c) x); auto. exfalso. apply (Hno x). unfold avail. split; auto. split; auto.
               destruct (c_assigned c x) eqn:E; auto. apply (wf_asg _ _ W) in E. destruct E. }
             destruct (Hr2 x) as [?|?]; auto; [apply Hsq; lia|congruence].
          -- intros x Hx. apply Hr, Hsq in Hx. cbn. lia.
        * exfalso. destruct Hq as [_ Hq]. destruct (Hq (c_cap c)) as [H'|H'].
          { apply Hsq. lia. } { rewrite Hc2 in H'. discriminate. } { rewrite Ho2 in H'; [discriminate|lia]. }
      + assert (He : e = rev re ++ [(k, s)]) by (rewrite <- (rev_involutive e), Er; reflexivity).
        destruct (evict_wf _ _ k s W0) as (c' & Hc' & W' & Hcap & Hout & Ha & Ho).
        { rewrite He. apply in_or_app. right. left. reflexivity. }
        rewrite Hc'. cbn [obind]. eexists _, s. split; [reflexivity|]. cbn [c_out with_out c_assigned c_cap].
        rewrite Hout. cbn. split; [reflexivity|]. split; auto.
        assert (Hb : s < c_cap c) by (apply W; rewrite He, map_app; apply in_or_app; right; left; reflexivity).
        rewrite Hcap. split; [exact Hb|]. right. left. split; [exact Hno|]. exists k, (rev re). split; [exact He|]. split; [|reflexivity].
        assert (Hns : noslot s e = rev re).
        { rewrite He. unfold noslot. rewrite filter_app. cbn. rewrite Nat.eqb_refl. cbn. rewrite app_nil_r.
          apply forallb_filter_id, forallb_forall. intros [k' s'] Hin. cbn. apply negb_true_iff, Nat.eqb_neq. intros ->.
          pose proof (wf_slots _ _ W) as Hn. rewrite He, map_app in Hn. apply NoDup_remove_2 in Hn.
          apply Hn. rewrite app_nil_r. apply in_slots in Hin. exact Hin. }
        rewrite Hns in W'.
        constructor; cbn [c_cap c_map c_key c_assigned c_out c_lru c_free with_out with_free]; try apply W'.
        * intros x. unfold fupd. destruct (Nat.eqb_spec x s) as [->|Hn]; [split; [change (c_cap c) with (c_cap (with_free c [])) in Hb; rewrite <- Hcap in Hb; exact Hb|exact Ha]|intros Hx; apply (wf_out _ _ W'); rewrite Hout; exact Hx].
        * intros x H1 H2 H3. unfold fupd in H3. destruct (Nat.eqb_spec x s) as [->|Hn]; [discriminate|].
          apply (wf_free _ _ W'); auto. rewrite Hout. exact H3.
  Qed.

  Lemma get_wf c e k : wf c e ->
    exists c' r, cget keqb k c = Ok (c', r) /\ c_cap c' = c_cap c /\ c_out c' = c_out c /\
      match r with
      | Some s => In (k, s) e /\ wf c' ((k, s) :: nokey k e)
      | None => ~ In k (map fst e) /\ c' = c
      end.
  Proof.
    intros W. unfold cget. destruct (kfind k (c_map c)) as [s|] eqn:E.
    - apply (wf_find _ _ _ _ W) in E. destruct (touch_wf _ _ _ _ W E) as (c' & -> & W' & A & B). cbn [obind].
      exists c', (Some s). rewrite (nokey_noslot _ _ _ _ W E). auto.
    - apply (wf_find_None _ _ _ W) in E. exists c, None. auto.
  Qed.

  Lemma erase_wf c e k : wf c e ->
    exists c', cerase keqb k c = Ok c' /\ wf c' (nokey k e) /\ c_cap c' = c_cap c /\ c_out c' = c_out c.
  Proof.
    intros W. unfold cerase. destruct (kfind k (c_map c)) as [s|] eqn:E.
    - apply (wf_find _ _ _ _ W) in E. destruct (evict_wf _ _ _ _ W E) as (c' & -> & W' & A & B & _).
      exists c'. rewrite (nokey_noslot _ _ _ _ W E). auto.
    - apply (wf_find_None _ _ _ W) in E. exists c. split; auto. split; auto.
      assert (Hn : nokey k e = e).
      { apply forallb_filter_id, forallb_forall. intros [k' s] H. cbn. apply negb_true_iff, keqb_false. intros <-.
        apply E. eapply in_keys; eauto. }
      rewrite Hn. exact W.
  Qed.

  Lemma put_wf dbg c e k s : wf c e -> s < c_cap c ->
    exists c', cput keqb dbg k (PSlot s) c = Ok (c', true) /\
      wf c' ((k, s) :: nokey k (noslot s e)) /\ c_cap c' = c_cap c /\ (forall x, c_out c' x = fupd (c_out c) s false x).
  Proof.
    intros W Hs. unfold cput. rewrite (proj2 (Nat.ltb_lt _ _) Hs). cbn [negb].
    (* evict an old slot of the key *)
    assert (S1 : exists c1 e1, (match kfind k (c_map c) with
                 | Some s' => if s' =? s then Ok c else evictSlot keqb s' c
                 | None => Ok c end) = Ok c1 /\ wf c1 e1 /\ c_cap c1 = c_cap c /\ c_out c1 = c_out c /\
               (In (k, s) e1 \/ ~ In k (map fst e1)) /\ nokey k (noslot s e1) = nokey k (noslot s e)).
    { destruct (kfind k (c_map c)) as [s'|] eqn:E.
      - apply (wf_find _ _ _ _ W) in E. destruct (Nat.eqb_spec s' s) as [->|Hn].
        + exists c, e. conj; auto.
        + destruct (evict_wf _ _ _ _ W E) as (c1 & -> & W1 & A & B & _). exists c1, (noslot s' e).
          rewrite <- (nokey_noslot _ _ _ _ W E) in *. conj; auto.
          * right. intros Hk. apply in_map_iff in Hk as ([k' x] & Ek & Hk). cbn in Ek. subst k'. apply In_nokey in Hk as [_ Hk]. congruence.
          * unfold nokey, noslot. rewrite !filter_filter. apply filter_ext. intros [k' x]. cbn.
            destruct (keqb k k'), (x =? s); reflexivity.
      - apply (wf_find_None _ _ _ W) in E. exists c, e. conj; auto. }
    destruct S1 as (c1 & e1 & -> & W1 & Hcap1 & Hout1 & Hk1 & He1). cbn [obind].
    (* drop the old key of the slot *)
    assert (S2 : exists c2 e2, (if c_assigned c1 s
                 then match c_key c1 s with
                      | None => Undef
                      | Some k' => if keqb k' k then Ok c1 else dropMapping keqb s c1
                      end
                 else Ok c1) = Ok c2 /\ wf c2 e2 /\ c_cap c2 = c_cap c /\ c_out c2 = c_out c /\
               (In (k, s) e2 \/ ~ In k (map fst e2) /\ ~ In s (map snd e2)) /\ nokey k (noslot s e2) = nokey k (noslot s e)).
    { destruct (c_assigned c1 s) eqn:Ea.
      - apply (wf_asg _ _ W1) in Ea. apply in_map_iff in Ea as ([k' x] & Ex & Hi). cbn in Ex. subst x.
        rewrite (wf_key _ _ W1 _ _ Hi). destruct (keqb k' k) eqn:Ek.
        + apply keqb_spec in Ek. subst k'. exists c1, e1. conj; auto; congruence.
        + apply keqb_false in Ek. destruct (drop_wf _ _ _ _ W1 Hi) as (c2 & -> & W2 & A & B & _).
          assert (Hnk : ~ In k (map fst e1)).
          { destruct Hk1 as [Hk1|Hk1]; auto. exfalso. apply Ek.
            assert (Ee : (k', s) = (k, s)) by (eapply (NoDup_map_In snd); [apply W1|exact Hi|exact Hk1|reflexivity]). congruence. }
          exists c2, (noslot s e1). conj; auto; try congruence.
          * right. split.
            -- intros H. apply Hnk. apply in_map_iff in H as ([k2 x] & E2 & H). cbn in E2. subst k2. apply In_noslot in H as [H _].
               eapply in_keys; eauto.
            -- intros H. apply in_map_iff in H as ([k2 x] & E2 & H). cbn in E2. subst x. apply In_noslot in H as [_ H]. congruence.
          * rewrite <- He1. unfold nokey, noslot. rewrite !filter_filter. apply filter_ext. intros [k2 x]. cbn.
            destruct (keqb k k2), (x =? s); reflexivity.
      - exists c1, e1. conj; auto; try congruence.
        assert (Hns : ~ In s (map snd e1)) by (intros H; apply (wf_asg _ _ W1) in H; congruence).
        right. split; auto. destruct Hk1 as [Hk1|Hk1]; auto. exfalso. apply Hns. eapply in_slots; eauto. }
    destruct S2 as (c2 & e2 & -> & W2 & Hcap2 & Hout2 & Hk2 & He2). cbn [obind].
    rewrite <- He2. clear c1 e1 W1 Hcap1 Hout1 Hk1 He1 He2.
    unfold removeFromFreeSlots, with_out, with_free, with_key, with_map.
    cbn [c_cap c_map c_key c_assigned c_out c_lru c_free].
    destruct Hk2 as [Hi|[Hnk Hns]].
    - (* already mapped: move to the front *)
      assert (Ha : c_assigned c2 s = true) by (apply (wf_asg _ _ W2); eapply in_slots; eauto).
      rewrite Ha. cbn [negb].
      match goal with |- context [touch s ?c3] => assert (W3 : wf c3 e2) end.
      { constructor; cbn [c_cap c_map c_key c_assigned c_out c_lru c_free]; try apply W2.
        - intros k' x Hx. unfold fupd. destruct (Nat.eqb_spec x s) as [->|Hn]; [|apply W2; exact Hx].
          assert (Ee : (k', s) = (k, s)) by (eapply (NoDup_map_In snd); [apply W2|exact Hx|exact Hi|reflexivity]). congruence.
        - intros k' x. unfold CacheModel.kset. cbn [In]. rewrite In_kerase, (wf_map _ _ W2). split.
          + intros [[= <- <-]|[H _]]; auto.
          + intros H. destruct (keqb k k') eqn:Ek.
            * apply keqb_spec in Ek. subst k'. left.
              assert (Ee : (k, x) = (k, s)) by (eapply (NoDup_map_In fst); [apply W2|exact H|exact Hi|reflexivity]). congruence.
            * apply keqb_false in Ek. right. split; auto.
        - unfold CacheModel.kset. cbn [map fst]. constructor; [|apply NoDup_map_filter, W2].
          intros H. apply in_map_iff in H as ([k2 x] & E2 & H). cbn in E2. subst k2. apply In_kerase in H as [_ H]. congruence.
        - intros x. unfold fupd. destruct (x =? s); [discriminate|apply W2].
        - intros x H1 H2 H3. unfold fupd in H3. destruct (Nat.eqb_spec x s) as [->|Hn]; [congruence|].
          rewrite <- in_rev. apply remove_first_keep; auto. rewrite <- in_rev. apply (wf_free _ _ W2); auto.
        - intros x Hx. rewrite <- in_rev in Hx. apply remove_first_In in Hx. rewrite <- in_rev in Hx. apply (wf_freeb _ _ W2); exact Hx. }
      destruct (touch_wf _ _ _ _ W3 Hi) as (c4 & -> & W4 & A & B). cbn [obind].
      exists c4. split; [reflexivity|]. split; [|rewrite A, B; cbn; rewrite Hout2; auto].
      assert (Hn : nokey k (noslot s e2) = noslot s e2).
      { rewrite <- (nokey_noslot _ _ _ _ W2 Hi). unfold nokey. rewrite filter_filter. apply filter_ext. intros [k2 x]. cbn.
        destruct (keqb k k2); reflexivity. }
      rewrite Hn. exact W4.
    - assert (Ha : c_assigned c2 s = false).
      { destruct (c_assigned c2 s) eqn:E; auto. apply (wf_asg _ _ W2) in E. contradiction. }
      rewrite Ha. cbn [negb obind]. eexists. split; [reflexivity|].
      unfold with_assigned, with_lru. cbn [c_cap c_map c_key c_assigned c_out c_lru c_free].
      split; [|rewrite Hout2; auto].
      assert (Hn : nokey k (noslot s e2) = e2).
      { unfold nokey, noslot. rewrite filter_filter. apply forallb_filter_id, forallb_forall. intros [k2 x] Hx. cbn.
        apply andb_true_iff. rewrite !negb_true_iff. split.
        - apply keqb_false. intros ->. apply Hnk. eapply in_keys; eauto.
        - apply Nat.eqb_neq. intros ->. apply Hns. eapply in_slots; eauto. }
      rewrite Hn.
      constructor; cbn [c_cap c_map c_key c_assigned c_out c_lru c_free map fst snd]; try apply W2.
      + rewrite (wf_lru _ _ W2). reflexivity.
      + constructor; auto. apply W2.
      + constructor; auto. apply W2.
      + intros k' x [[= <- <-]|Hx]; unfold fupd; [rewrite Nat.eqb_refl; reflexivity|].
        destruct (Nat.eqb_spec x s) as [->|Hne]; [exfalso; apply Hns; eapply in_slots; eauto|apply W2; exact Hx].
      + intros x. unfold fupd. cbn [In]. destruct (Nat.eqb_spec x s) as [->|Hne]; [split; auto|].
        rewrite (wf_asg _ _ W2). split; auto. intros [?|?]; auto. congruence.
      + intros k' x. unfold CacheModel.kset. cbn [In]. rewrite In_kerase, (wf_map _ _ W2). split.
        * intros [H|[H _]]; auto.
        * intros [H|H]; auto. right. split; auto. intros ->. apply Hnk. eapply in_keys; eauto.
      + unfold CacheModel.kset. cbn [map fst]. constructor; [|apply NoDup_map_filter, W2].
        intros H. apply in_map_iff in H as ([k2 x] & E2 & H). cbn in E2. subst k2. apply In_kerase in H as [_ H]. congruence.
      + intros x [<-|H]; [lia|apply W2; exact H].
      + intros x. unfold fupd. destruct (x =? s); [discriminate|apply W2].
      + intros x H1 H2 H3. unfold fupd in H2, H3. destruct (Nat.eqb_spec x s) as [->|Hne]; [discriminate|].
        rewrite <- in_rev. apply remove_first_keep; auto. rewrite <- in_rev. apply (wf_free _ _ W2); auto.
      + intros x Hx. rewrite <- in_rev in Hx. apply remove_first_In in Hx. rewrite <- in_rev in Hx. apply (wf_freeb _ _ W2); exact Hx.
  Qed.
End CacheP.

(** ** Histories *)
From Verif Require Import CacheSpec.
Section Runs.
  Context {K : Type}.
  Variable keqb : K -> K -> bool.
  Hypothesis keqb_spec : forall a b, keqb a b = true <-> a = b.
  Notation wf := (wf (K := K)).
  Notation nokey := (nokey keqb).

  Definition hok (h : list (cop K * cres)) (c : cache K) (e : list (K * nat)) : Prop :=
    wf c e /\ (forall k s, In (k, s) e -> last_put keqb h k = Some s) /\ (forall s, c_out c s = held h s).

  Lemma step_hok dbg c e h o : hok h c e -> dbg = false \/ cstep keqb dbg c o <> Undef ->
    exists c' r e', cstep keqb dbg c o = Ok (c', r) /\ hok ((o, r) :: h) c' e' /\
      match o, r with
      | CGet k, RGet (Some s) => In (k, s) e /\ e' = (k, s) :: nokey k e /\ c_cap c' = c_cap c
      | CGet k, RGet None => ~ In k (map fst e) /\ e' = e /\ c_cap c' = c_cap c
      | CAcquire k, RAcquire (Some s) true => In (k, s) e /\ e' = (k, s) :: nokey k e /\ c_cap c' = c_cap c
      | CAcquire k, RAcquire (Some s) false => ~ In k (map fst e) /\
          ((avail c s /\ e' = e /\ c_cap c' = c_cap c) \/
           ((forall x, ~ avail c x) /\ (exists k', e = e' ++ [(k', s)]) /\ c_cap c' = c_cap c) \/
           ((forall x, ~ avail c x) /\ e = [] /\ e' = [] /\ c_cap c <= s /\ c_cap c' = c_cap c * 2))
      | CPut k (PSlot s), RPut true => s < c_cap c /\ e' = (k, s) :: nokey k (noslot s e) /\ c_cap c' = c_cap c
      | CPut k _, RPut false => e' = e /\ c' = c
      | CErase k, RErase => e' = nokey k e /\ c_cap c' = c_cap c
      | _, _ => False
      end.
  Proof.
    intros (W & HL & HO) Hd. unfold hok. destruct o as [k|k|k p|k]; cbn [cstep] in *.
    - destruct (get_wf keqb keqb_spec _ _ k W) as (c' & r & -> & A & B & C). cbn [obind].
      destruct r as [s|].
      + destruct C as [C D]. exists c', (RGet (Some s)), ((k, s) :: nokey k e). split; [reflexivity|]. conj; auto.
        * intros k' s' [[= <- <-]|H]; cbn; [apply HL; exact C|].
          apply In_nokey in H as [H _]; auto.
        * intros x. cbn. rewrite B. apply HO.
      + destruct C as [C ->]. exists c, (RGet None), e. split; [reflexivity|]. conj; auto.
    - unfold cgetOrAcquire in *. destruct (CacheModel.kfind keqb k (c_map c)) as [s|] eqn:E.
      + apply (wf_find keqb keqb_spec _ _ _ _ W) in E. destruct (touch_wf _ _ _ _ W E) as (c' & -> & W' & A & B). cbn [obind].
        rewrite <- (nokey_noslot keqb keqb_spec _ _ _ _ W E) in W'.
        exists c', (RAcquire (Some s) true), ((k, s) :: nokey k e). split; [reflexivity|]. conj; auto.
        * intros k' s' [[= <- <-]|H]; cbn; [apply HL; exact E|]. apply In_nokey in H as [H _]; auto.
        * intros x. cbn. rewrite B. apply HO.
      + apply (wf_find_None keqb keqb_spec _ _ _ W) in E. destruct (acquire_wf keqb keqb_spec _ _ W) as (c' & s & -> & Ho & Ha & Hs & Hc). cbn [obind].
        assert (HO' : forall x, c_out c' x = held ((CAcquire k, RAcquire (Some s) false) :: h) x).
        { intros x. rewrite Ho. unfold fupd. cbn [held]. destruct (x =? s); auto. }
        destruct Hc as [(Hav & W' & Hcap)|[(Hno & k' & e' & He & W' & Hcap)|(Hno & He & Hle & W' & Hcap)]].
        * exists c', (RAcquire (Some s) false), e. split; [reflexivity|]. conj; auto.
        * exists c', (RAcquire (Some s) false), e'. split; [reflexivity|]. split; [|split; [exact E|right; left; conj; eauto]].
          conj; auto. intros k0 s0 H. cbn. apply HL. rewrite He. apply in_or_app. auto.
        * exists c', (RAcquire (Some s) false), []. split; [reflexivity|]. split; [|split; [exact E|right; right; conj; auto]].
          conj; auto. intros ? ? [].
    - destruct p as [| |s].
      + cbn. exists c, (RPut false), e. split; [reflexivity|]. conj; auto.
      + destruct dbg; [destruct Hd as [Hd|Hd]; [discriminate|exfalso; apply Hd; reflexivity]|].
        cbn. exists c, (RPut false), e. split; [reflexivity|]. conj; auto.
      + destruct (Nat.ltb_spec s (c_cap c)) as [Hs|Hs].
        * destruct (put_wf keqb keqb_spec dbg _ _ k s W Hs) as (c' & -> & W' & A & B). cbn [obind].
          exists c', (RPut true), ((k, s) :: nokey k (noslot s e)). split; [reflexivity|]. conj; auto.
          -- intros k' s' [[= <- <-]|H]; cbn [last_put]; [rewrite keqb_refl; auto|].
             apply In_nokey in H as [H Hk]; auto. apply In_noslot in H as [H _].
             rewrite (proj2 (keqb_false keqb keqb_spec k' k)) by auto. apply HL; exact H.
          -- intros x. rewrite B. unfold fupd. cbn [held]. destruct (x =? s); auto.
        * unfold cput in *. assert (El : (s <? c_cap c) = false) by (apply Nat.ltb_ge; exact Hs). rewrite El in *. cbn [negb] in *.
          destruct dbg; [destruct Hd as [Hd|Hd]; [discriminate|exfalso; apply Hd; reflexivity]|].
          cbn [obind]. exists c, (RPut false), e. split; [reflexivity|]. conj; auto.
    - destruct (erase_wf keqb keqb_spec _ _ k W) as (c' & -> & W' & A & B). cbn [obind].
      exists c', RErase, (nokey k e). split; [reflexivity|]. conj; auto.
      + intros k' s' H. cbn. apply In_nokey in H as [H _]; auto.
      + intros x. cbn. rewrite B. apply HO.
  Qed.

  Lemma hok_new n : hok [] (cache_new n) [].
  Proof. split; [apply wf_new|]. split; [intros ? ? []|reflexivity]. Qed.

  Lemma run_hok dbg os : forall h c e, hok h c e -> dbg = false \/ crun keqb dbg c h os <> Undef ->
    exists c' h' e', crun keqb dbg c h os = Ok (c', h') /\ hok h' c' e'.
  Proof.
    induction os as [|o os IH]; intros h c e HI Hd; cbn [crun] in *; [eauto 10|].
    assert (Hs : dbg = false \/ cstep keqb dbg c o <> Undef).
    { destruct Hd as [Hd|Hd]; auto. right. intros E. rewrite E in Hd. apply Hd. reflexivity. }
    destruct (step_hok _ _ _ _ _ HI Hs) as (c' & r & e' & Hst & HI' & _). rewrite Hst in *. cbn [obind] in *.
    eapply IH; eauto.
  Qed.

  Lemma run_ok dbg n os c h : crun keqb dbg (cache_new n) [] os = Ok (c, h) -> exists e, hok h c e.
  Proof.
    intros H. destruct (run_hok dbg os [] _ _ (hok_new n)) as (c' & h' & e & H' & HI); [right; congruence|].
    rewrite H in H'. injection H' as <- <-. eauto.
  Qed.

  Lemma wf_size c e : wf c e -> csize c = length e /\ length (c_lru c) = length e /\ length e <= c_cap c.
  Proof.
    intros W. split; [|split].
    - unfold csize. apply Permutation_length. apply NoDup_Permutation.
      + apply (NoDup_map_inv fst). apply W.
      + apply (NoDup_map_inv fst). apply W.
      + intros [k s]. apply W.
    - rewrite (wf_lru _ _ W). apply map_length.
    - rewrite <- (map_length snd), <- (seq_length (c_cap c) 0). apply NoDup_incl_length; [apply W|].
      intros s Hs. apply in_seq. apply (wf_bound _ _ W) in Hs. lia.
  Qed.

  (** ** The usage pattern *)
  Lemma In_recent k ks : In k (recent keqb ks) <-> In k ks.
  Proof.
    induction ks as [|a ks IH]; cbn; [tauto|]. rewrite filter_In, negb_true_iff, (keqb_false keqb keqb_spec), IH.
    destruct (keqb a k) eqn:E; [apply keqb_spec in E|apply (keqb_false keqb keqb_spec) in E]; intuition congruence.
  Qed.
  Lemma NoDup_recent ks : NoDup (recent keqb ks).
  Proof.
    induction ks as [|a ks IH]; cbn; constructor; [|apply NoDup_filter, IH].
    rewrite filter_In, negb_true_iff, keqb_refl by exact keqb_spec. intros [_ H]. discriminate.
  Qed.

  Definition without (k : K) (l : list K) := filter (fun k' => negb (keqb k k')) l.
  Lemma without_notin k l : ~ In k l -> without k l = l.
  Proof.
    intros H. apply forallb_filter_id, forallb_forall. intros a Ha. apply negb_true_iff, (keqb_false keqb keqb_spec). congruence.
  Qed.
  Lemma without_firstn_in k n l : NoDup l -> In k (firstn (S n) l) -> without k (firstn (S n) l) = firstn n (without k l).
  Proof.
    revert n; induction l as [|a l IH]; intros n Hn; [intros []|]. inversion Hn as [|? ? Ha Hl]; subst.
    cbn [firstn]. intros [->|H].
    - cbn [without filter]. rewrite keqb_refl by exact keqb_spec. cbn [negb].
      fold (without k (firstn n l)). fold (without k l). rewrite !without_notin; auto.
      intros H. apply Ha. rewrite <- (firstn_skipn n l). apply in_or_app. auto.
    - cbn [without filter]. assert (E : keqb k a = false).
      { apply (keqb_false keqb keqb_spec). intros ->. apply Ha. rewrite <- (firstn_skipn n l). apply in_or_app. auto. }
      rewrite E. cbn [negb]. fold (without k (firstn n l)). fold (without k l).
      destruct n as [|n]; [destruct H|]. cbn [firstn]. f_equal. rewrite <- IH; auto.
  Qed.
  Lemma without_firstn_notin k n l : ~ In k (firstn (S n) l) -> firstn n (without k l) = firstn n l.
  Proof.
    revert n; induction l as [|a l IH]; intros n H; [reflexivity|]. cbn [firstn In] in H.
    cbn [without filter]. assert (E : keqb k a = false) by (apply (keqb_false keqb keqb_spec); intros ->; tauto).
    rewrite E. cbn [negb]. fold (without k l). destruct n as [|n]; [reflexivity|]. cbn [firstn]. f_equal. apply IH. tauto.
  Qed.
  Lemma map_fst_nokey k e : map fst (nokey k e) = without k (map fst e).
  Proof. symmetry. exact (filter_map (fun a => negb (keqb k a)) fst e). Qed.

  Section Memo.
    Context {V : Type}.
    Variable f : K -> V.
    (** [ks]: the keys used so far, newest first *)
    Definition minv (n : nat) (ks : list K) (st : cache K * (nat -> V)) : Prop :=
      exists e, wf (fst st) e /\ c_cap (fst st) = S n /\ (forall s, c_out (fst st) s = false) /\
        map fst e = firstn (S n) (recent keqb ks) /\ (forall k s, In (k, s) e -> snd st s = f k).

    Lemma memo_step n ks st k : minv n ks st ->
      exists c heap s, cmemo keqb f k st = Ok (c, heap, (s, f k)) /\ minv n (k :: ks) (c, heap).
    Proof.
      destruct st as [c heap]. intros (e & W & Hcap & Hout & Hk & Hv). cbn [fst snd] in *.
      unfold cmemo, cgetOrAcquire. destruct (CacheModel.kfind keqb k (c_map c)) as [s|] eqn:E.
      - apply (wf_find keqb keqb_spec _ _ _ _ W) in E. destruct (touch_wf _ _ _ _ W E) as (c' & -> & W' & A & B). cbn [obind].
        exists c', heap, s. rewrite (Hv _ _ E). split; [reflexivity|].
        exists ((k, s) :: noslot s e). cbn [fst snd]. split; [exact W'|]. split; [congruence|]. split; [intros x; rewrite B; auto|].
        rewrite <- (nokey_noslot keqb keqb_spec _ _ _ _ W E) in *. split.
        + cbn [map fst recent firstn]. f_equal. rewrite map_fst_nokey, Hk. apply without_firstn_in; [apply NoDup_recent|].
          rewrite <- Hk. eapply in_keys; eauto.
        + intros k' s' [[= <- <-]|H]; [auto|]. apply In_nokey in H as [H _]; auto.
      - apply (wf_find_None keqb keqb_spec _ _ _ W) in E.
        destruct (acquire_wf keqb keqb_spec _ _ W) as (c' & s & -> & Ho & Ha & Hs & Hc). cbn [obind].
        assert (Hc' : exists e', wf c' e' /\ c_cap c' = S n /\ ~ In s (map snd e') /\ map fst e' = firstn n (recent keqb ks) /\
                        (forall k0 s0, In (k0, s0) e' -> In (k0, s0) e)).
        { assert (Hns : forall e', wf c' e' -> ~ In s (map snd e')).
          { intros e' W' H. apply (wf_asg _ _ W') in H. congruence. }
          destruct (wf_size _ _ W) as (_ & _ & Hle). rewrite Hcap in Hle.
          destruct Hc as [(Hav & W' & Hc)|[(Hno & k' & e' & He & W' & Hc)|(Hno & He & _)]].
          - exists e. split; auto. split; [congruence|]. split; auto. split; auto.
            assert (Hlt : length e <= n).
            { assert (S (length e) <= S n); [|lia]. rewrite <- (map_length snd e). rewrite <- (seq_length (S n) 0).
              apply (NoDup_incl_length (l := s :: map snd e)); [constructor; [apply Hns; exact W'|apply W]|].
              intros x [<-|Hx]; apply in_seq; [destruct Hav; lia|apply (wf_bound _ _ W) in Hx; lia]. }
            rewrite Hk. rewrite <- (map_length fst), Hk, firstn_length in Hlt.
            rewrite !firstn_all2; auto; lia.
          - exists e'. split; auto. split; [congruence|]. split; auto. split; [|intros; rewrite He; apply in_or_app; auto].
            assert (Hlen : length e = S n).
            { apply Nat.le_antisymm; auto. rewrite <- (seq_length (S n) 0), <- (map_length snd e).
              apply NoDup_incl_length; [apply seq_NoDup|]. intros x Hx. apply in_seq in Hx.
              apply (wf_asg _ _ W). destruct (c_assigned c x) eqn:Ea; auto. exfalso. apply (Hno x). unfold avail.
              split; [lia|]. split; auto. }
            assert (Hl : length (map fst e') = n).
            { rewrite He, app_length in Hlen. cbn in Hlen. rewrite map_length. lia. }
            assert (Hf : firstn n (map fst e) = map fst e').
            { rewrite He, map_app, firstn_app, Hl, Nat.sub_diag, firstn_O, app_nil_r. rewrite <- Hl at 1. apply firstn_all. }
            rewrite <- Hf, Hk, firstn_firstn. f_equal. lia.
          - exfalso. subst e. cbn in Hk. apply (Hno 0). unfold avail. split; [rewrite Hcap; lia|]. split; auto.
            destruct (c_assigned c 0) eqn:Ea; auto. apply (wf_asg _ _ W) in Ea. destruct Ea. }
        destruct Hc' as (e' & W' & Hcap' & Hns & Hk' & Hsub).
        rewrite <- Hcap' in *.
        destruct (put_wf keqb keqb_spec true _ _ k s W' Hs) as (c2 & -> & W2 & A & B). cbn [obind].
        exists c2, (fupd heap s (f k)), s. assert (Hfs : fupd heap s (f k) s = f k) by (unfold fupd; rewrite Nat.eqb_refl; reflexivity).
        rewrite Hfs. split; [reflexivity|].
        assert (Hnk : ~ In k (map fst e')).
        { intros H. apply E. apply in_map_iff in H as ([k2 s2] & Ek & H). cbn in Ek. subst k2. apply Hsub in H. eapply in_keys; eauto. }
        assert (Hes : nokey k (noslot s e') = e').
        { unfold nokey, CacheProofs.nokey, noslot. rewrite filter_filter. apply forallb_filter_id, forallb_forall. intros [k2 x] Hx. cbn.
          apply andb_true_iff. rewrite !negb_true_iff. split.
          - apply (keqb_false keqb keqb_spec). intros ->. apply Hnk. eapply in_keys; eauto.
          - apply Nat.eqb_neq. intros ->. apply Hns. eapply in_slots; eauto. }
        rewrite Hes in W2. exists ((k, s) :: e'). cbn [fst snd]. split; [exact W2|]. split; [congruence|].
        split; [|split].
        + intros x. rewrite B. unfold fupd. rewrite Ho. unfold fupd. destruct (x =? s); auto.
        + cbn [map fst recent firstn]. rewrite Hcap' in *. cbn [firstn]. f_equal. rewrite Hk'. symmetry. apply without_firstn_notin. rewrite <- Hk. exact E.
        + intros k2 s2 [[= <- <-]|H]; [exact Hfs|]. unfold fupd.
          destruct (Nat.eqb_spec s2 s) as [->|Hne]; [exfalso; apply Hns; eapply in_slots; eauto|]. apply Hv, Hsub, H.
    Qed.

    Lemma memos_inv n l : forall ks st, minv n ks st ->
      exists c heap vs, cmemos keqb f l st = Ok (c, heap, vs) /\ map snd vs = map f l /\ minv n (rev l ++ ks) (c, heap).
    Proof.
      induction l as [|k l IH]; intros ks st HI; cbn [cmemos].
      - destruct st as [c heap]. exists c, heap, []. auto.
      - destruct (memo_step _ _ _ k HI) as (c & heap & s & -> & HI'). cbn [obind].
        destruct (IH _ _ HI') as (c2 & h2 & vs & -> & Hv & HI2). cbn [obind].
        exists c2, h2, ((s, f k) :: vs). split; [reflexivity|]. split; [cbn; congruence|].
        cbn [rev]. rewrite <- app_assoc. exact HI2.
    Qed.

    Lemma minv_new n heap : minv (n - 1) [] (cache_new n, heap).
    Proof.
      exists []. cbn [fst snd]. split; [apply wf_new|]. cbn.
      split; [destruct (Nat.eqb_spec n 0); lia|]. split; [reflexivity|]. split; [reflexivity|]. intros ? ? [].
    Qed.
  End Memo.
End Runs.
