(** Proofs about the circular list. *)
From Coq Require Import List Arith Bool Lia Permutation.
From Verif Require Import Common RingModel RingSpec.
Import ListNotations.

Section Proofs.
  Context {T : Type}.
  Notation mem := (mem T).

  Definition sound (m : mem) : Prop := forall a, live m a -> a < fresh m.

  (** ** Single accesses *)
  Lemma upd_same (h : nat -> option (node T)) a n : upd h a n a = n.
  Proof. unfold upd. now rewrite Nat.eqb_refl. Qed.
  Lemma upd_other (h : nat -> option (node T)) a n b : b <> a -> upd h a n b = h b.
  Proof. intros H. unfold upd. now apply Nat.eqb_neq in H; rewrite H. Qed.

  Lemma live_load (m : mem) a : live m a -> exists n, cells m a = Some n /\ load m a = Ok n.
  Proof. unfold live, load. destruct (cells m a) as [n|]; [now exists n|easy]. Qed.

  (** [m'] is [m] but for the links of [a]. *)
  Definition relinked (m m' : mem) (a : nat) : Prop :=
    fresh m' = fresh m /\ (forall c, c <> a -> cells m' c = cells m c) /\
    (forall c x, carries m c x -> carries m' c x) /\ (forall c, live m' c <-> live m c).

  Lemma next_cells (m m' : mem) a : cells m' a = cells m a -> next_of m' a = next_of m a.
  Proof. intros E. unfold next_of, load. now rewrite E. Qed.
  Lemma prev_cells (m m' : mem) a : cells m' a = cells m a -> prev_of m' a = prev_of m a.
  Proof. intros E. unfold prev_of, load. now rewrite E. Qed.

  Lemma set_next_ok (m : mem) a b :
    live m a -> exists m', set_next m a b = Ok m' /\ relinked m m' a /\
      next_of m' a = Ok b /\ (forall c, prev_of m' c = prev_of m c).
  Proof.
    intros H. destruct (live_load m a H) as (n & Hc & Hl). unfold set_next. rewrite Hl. cbn [obind].
    eexists. split; [reflexivity|]. split; [|split].
    - split; [reflexivity|]. split; [intros c Hn; now apply upd_other|]. split.
      + intros c x (k & Hk & Hx). destruct (Nat.eq_dec c a) as [->|Hn].
        * rewrite Hc in Hk. injection Hk as <-. eexists. cbn. rewrite upd_same. split; [reflexivity|exact Hx].
        * exists k. cbn. now rewrite upd_other.
      + intros c. unfold live; cbn. destruct (Nat.eq_dec c a) as [->|Hn].
        * rewrite upd_same, Hc. easy.
        * now rewrite upd_other.
    - unfold next_of, load; cbn. now rewrite upd_same.
    - intros c. unfold prev_of, load; cbn. destruct (Nat.eq_dec c a) as [->|Hn].
      + now rewrite upd_same, Hc.
      + now rewrite upd_other.
  Qed.

  Lemma set_prev_ok (m : mem) a b :
    live m a -> exists m', set_prev m a b = Ok m' /\ relinked m m' a /\
      prev_of m' a = Ok b /\ (forall c, next_of m' c = next_of m c).
  Proof.
    intros H. destruct (live_load m a H) as (n & Hc & Hl). unfold set_prev. rewrite Hl. cbn [obind].
    eexists. split; [reflexivity|]. split; [|split].
    - split; [reflexivity|]. split; [intros c Hn; now apply upd_other|]. split.
      + intros c x (k & Hk & Hx). destruct (Nat.eq_dec c a) as [->|Hn].
        * rewrite Hc in Hk. injection Hk as <-. eexists. cbn. rewrite upd_same. split; [reflexivity|exact Hx].
        * exists k. cbn. now rewrite upd_other.
      + intros c. unfold live; cbn. destruct (Nat.eq_dec c a) as [->|Hn].
        * rewrite upd_same, Hc. easy.
        * now rewrite upd_other.
    - unfold prev_of, load; cbn. now rewrite upd_same.
    - intros c. unfold next_of, load; cbn. destruct (Nat.eq_dec c a) as [->|Hn].
      + now rewrite upd_same, Hc.
      + now rewrite upd_other.
  Qed.

  Lemma delete_ok (m : mem) a :
    live m a -> exists m', delete m a = Ok m' /\ fresh m' = fresh m /\
      (forall c, c <> a -> cells m' c = cells m c) /\ cells m' a = None.
  Proof.
    intros H. destruct (live_load m a H) as (n & Hc & Hl). unfold delete. rewrite Hl. cbn [obind].
    eexists. split; [reflexivity|]. split; [reflexivity|]. cbn. split; [|apply upd_same].
    intros c Hn. now apply upd_other.
  Qed.

  (** ** Chains *)
  Lemma chain_snoc (m : mem) l a b : chain m (l ++ [a; b]) <-> chain m (l ++ [a]) /\ linked m a b.
  Proof.
    induction l as [|c l IH]; [cbn; tauto|].
    destruct l as [|d l]; [cbn; tauto|].
    change (linked m c d /\ chain m ((d :: l) ++ [a; b]) <->
            (linked m c d /\ chain m ((d :: l) ++ [a])) /\ linked m a b). rewrite IH. tauto.
  Qed.

  Lemma chain_frame (m m' : mem) l :
    (forall a, In a (removelast l) -> next_of m' a = next_of m a) ->
    (forall a, In a (tl l) -> prev_of m' a = prev_of m a) ->
    chain m l -> chain m' l.
  Proof.
    induction l as [|a l IH]; intros Hn Hp Hc; [exact Hc|]. destruct l as [|b l]; [exact I|].
    destruct Hc as [[H1 H2] Hc]. split.
    - split; [rewrite Hn; [exact H1|now left]|rewrite Hp; [exact H2|now left]].
    - apply IH; [intros c Hin; apply Hn; now right|intros c Hin; apply Hp; now right|exact Hc].
  Qed.

  Lemma chain_tl (m : mem) a l : chain m (a :: l) -> chain m l.
  Proof. destruct l; [easy|]. now intros [_ H]. Qed.

  Lemma ring_rotate (m : mem) a r : ring m (a :: r) -> ring m (r ++ [a]).
  Proof.
    intros [Hd Hc]. split.
    - apply (Permutation_NoDup (l := a :: r)); [apply Permutation_cons_append|exact Hd].
    - destruct r as [|b r]; [exact Hc|]. cbn [app] in *. destruct Hc as [Hl Hc].
      change (chain m ((b :: r ++ [a]) ++ [b])).
      replace ((b :: r ++ [a]) ++ [b]) with ((b :: r) ++ [a; b]) by (cbn; now rewrite <- app_assoc).
      apply chain_snoc. split; [exact Hc|exact Hl].
  Qed.

  Lemma ring_rotate_app (m : mem) p q : ring m (p ++ q) -> ring m (q ++ p).
  Proof.
    revert q. induction p as [|a p IH]; intros q H; [now rewrite app_nil_r|].
    cbn [app] in H. apply ring_rotate in H. rewrite <- app_assoc in H. apply IH in H.
    now rewrite <- app_assoc in H.
  Qed.

  Lemma ring_next (m : mem) a b r : ring m (a :: b :: r) -> next_of m a = Ok b.
  Proof. intros [_ H]. cbn in H. apply H. Qed.
  Lemma ring_next1 (m : mem) a : ring m [a] -> next_of m a = Ok a.
  Proof. intros [_ H]. cbn in H. apply H. Qed.
  Lemma ring_prev (m : mem) a r z : ring m (a :: r ++ [z]) -> prev_of m a = Ok z.
  Proof.
    intros [_ H]. change (chain m ((a :: r ++ [z]) ++ [a])) in H.
    replace ((a :: r ++ [z]) ++ [a]) with ((a :: r) ++ [z; a]) in H by (cbn; now rewrite <- app_assoc).
    apply chain_snoc in H. apply H.
  Qed.
  Lemma ring_prev1 (m : mem) a : ring m [a] -> prev_of m a = Ok a.
  Proof. intros [_ H]. cbn in H. apply H. Qed.

  Lemma carries_live (m : mem) a x : carries m a x -> live m a.
  Proof. intros (n & E & _). unfold live. rewrite E. discriminate. Qed.
  Lemma all_live (m : mem) ns xs a : Forall2 (carries m) ns xs -> In a ns -> live m a.
  Proof.
    induction 1 as [|b x ns xs Hc _ IH]; intros []; [subst; now apply carries_live in Hc|now apply IH].
  Qed.

  (** A list is unaffected by what happens elsewhere. *)
  Lemma holds_frame (m m' : mem) l ns xs :
    (forall a, In a ns -> cells m' a = cells m a) -> holds_in m l ns xs -> holds_in m' l ns xs.
  Proof.
    intros Hf (Hs & Hh & [Hd Hc] & Hx). split; [exact Hs|]. split; [exact Hh|]. split.
    - split; [exact Hd|]. destruct ns as [|a ns]; [exact I|].
      apply (chain_frame m); [| |exact Hc].
      + intros b Hb. apply next_cells, Hf. rewrite removelast_last in Hb. exact Hb.
      + intros b Hb. apply prev_cells, Hf. cbn [app tl] in Hb. apply in_app_iff in Hb. cbn in *. tauto.
    - clear - Hf Hx. induction Hx as [|a x ns xs (n & Hn & Hd) _ IH]; [constructor|]. constructor.
      + exists n. rewrite Hf by now left. auto.
      + apply IH. intros b Hb. apply Hf. now right.
  Qed.

  (** ** Taking a node out *)
  Lemma remove_ok (m : mem) e r :
    ring m (e :: r) -> r <> [] -> (forall a, In a (e :: r) -> live m a) ->
    exists next prev m1 m2 m3,
      next_of m e = Ok next /\ prev_of m e = Ok prev /\ hd_error r = Some next /\
      delete m e = Ok m1 /\ set_prev m1 next prev = Ok m2 /\ set_next m2 prev next = Ok m3 /\
      fresh m3 = fresh m /\ ring m3 r /\ (forall a, ~ In a (e :: r) -> cells m3 a = cells m a) /\
      (forall a x, a <> e -> carries m a x -> carries m3 a x) /\
      (forall a, live m3 a <-> live m a /\ a <> e).
  Proof.
    intros Hring Hne Hlive. destruct (exists_last Hne) as (r0 & z & Er).
    destruct r as [|b rr] eqn:Eb; [easy|]. rewrite <- Eb in *.
    assert (Hn : next_of m e = Ok b) by (rewrite Eb in Hring; now apply (ring_next m e b rr)).
    assert (Hp : prev_of m e = Ok z) by (rewrite Er in Hring; now apply (ring_prev m e r0)).
    destruct Hring as [Hd Hc]. inversion Hd as [|x y He Hdr]; subst x y.
    assert (Hbr : In b r) by (rewrite Eb; now left).
    assert (Hzr : In z r) by (rewrite Er; apply in_app_iff; cbn; tauto).
    destruct (delete_ok m e) as (m1 & E1 & F1 & O1 & N1); [apply Hlive; now left|].
    assert (L1 : forall a, live m1 a <-> live m a /\ a <> e).
    { intros a. unfold live. destruct (Nat.eq_dec a e) as [->|Ha]; [rewrite N1; tauto|].
      rewrite O1 by assumption. tauto. }
    destruct (set_prev_ok m1 b z) as (m2 & E2 & (F2 & O2 & C2 & L2) & P2 & X2).
    { apply L1. split; [apply Hlive; now right|congruence]. }
    destruct (set_next_ok m2 z b) as (m3 & E3 & (F3 & O3 & C3 & L3) & X3 & P3).
    { apply L2, L1. split; [apply Hlive; now right|congruence]. }
    exists b, z, m1, m2, m3.
    split; [exact Hn|]. split; [exact Hp|]. split; [now rewrite Eb|]. split; [exact E1|].
    split; [exact E2|]. split; [exact E3|]. split; [congruence|]. split.
    - split; [exact Hdr|].
      assert (Hcr : chain m r).
      { apply (chain_tl m e). cbn [app] in Hc. rewrite Er in Hc |- *.
        change (chain m ((e :: (r0 ++ [z])) ++ [e])) in Hc.
        replace ((e :: (r0 ++ [z])) ++ [e]) with ((e :: r0) ++ [z; e]) in Hc by (cbn; now rewrite <- app_assoc).
        apply chain_snoc in Hc. apply Hc. }
      assert (Hc3 : chain m3 r).
      { apply (chain_frame m); [| |exact Hcr].
        - intros a Ha. rewrite Er, removelast_last in Ha.
          assert (Haz : a <> z).
          { intros ->. rewrite Er in Hdr. apply NoDup_remove_2 in Hdr. rewrite app_nil_r in Hdr. tauto. }
          assert (Har : In a r) by (rewrite Er; apply in_app_iff; tauto).
          rewrite (next_cells m2 m3 a (O3 a Haz)), X2. apply next_cells, O1. congruence.
        - intros a Ha. rewrite Eb in Ha. cbn [tl] in Ha.
          assert (Hab : a <> b). { intros ->. rewrite Eb in Hdr. now inversion Hdr. }
          assert (Har : In a r) by (rewrite Eb; now right).
          rewrite P3, (prev_cells m1 m2 a (O2 a Hab)). apply prev_cells, O1. congruence. }
      assert (G : chain m3 (r ++ [b])).
      { rewrite Er, <- app_assoc. cbn [app]. apply chain_snoc.
        rewrite <- Er. split; [exact Hc3|]. split; [exact X3|]. now rewrite P3. }
      clear - G Eb. subst r. exact G.
    - split; [|split].
      + intros a Ha. rewrite O3, O2, O1; [reflexivity|..]; intros ->; apply Ha; cbn; tauto.
      + intros a x Ha Hx. apply C3, C2. destruct Hx as (n & Hxn & Hxd). exists n. now rewrite O1.
      + intros a. rewrite L3, L2, L1. tauto.
  Qed.

  (** ** Putting a node in *)
  Lemma insert_ok (m : mem) h r d :
    sound m -> ring m (h :: r) -> (forall a, In a (h :: r) -> live m a) ->
    exists next m2 m3 m4 m5,
      next_of m h = Ok next /\
      set_next (fst (new_node m d)) (fresh m) next = Ok m2 /\ set_prev m2 (fresh m) h = Ok m3 /\
      set_next m3 h (fresh m) = Ok m4 /\ set_prev m4 next (fresh m) = Ok m5 /\
      fresh m5 = S (fresh m) /\ ring m5 (fresh m :: r ++ [h]) /\
      (forall a, ~ In a (fresh m :: h :: r) -> cells m5 a = cells m a) /\
      carries m5 (fresh m) d /\
      (forall a x, carries m a x -> carries m5 a x) /\
      (forall a, live m5 a <-> live m a \/ a = fresh m).
  Proof.
    intros Hs Hring Hlive. set (c := fresh m).
    assert (Hcf : forall a, In a (h :: r) -> a <> c).
    { intros a Ha ->. pose proof (Hs c (Hlive c Ha)). unfold c in *. lia. }
    destruct (r ++ [h]) as [|b q] eqn:Eq; [now destruct r|].
    assert (Hn : next_of m h = Ok b).
    { destruct r as [|b' r']; cbn in Eq; injection Eq as <- _.
      - now apply ring_next1.
      - now apply (ring_next m h b' r'). }
    assert (Hb : In b (h :: r)).
    { assert (In b (r ++ [h])) by (rewrite Eq; now left). apply in_app_iff in H. cbn in *. tauto. }
    destruct Hring as [Hd Hc].
    set (m1 := fst (new_node m d)).
    assert (Lc : live m1 c) by (unfold live, m1, new_node, c; cbn; rewrite upd_same; discriminate).
    assert (O1 : forall a, a <> c -> cells m1 a = cells m a) by (intros a Ha; now apply upd_other).
    assert (Lo : forall a, live m1 a <-> live m a \/ a = c).
    { intros a. destruct (Nat.eq_dec a c) as [->|Ha]; [tauto|]. unfold live. rewrite O1 by assumption. tauto. }
    destruct (set_next_ok m1 c b Lc) as (m2 & E2 & (F2 & O2 & C2 & L2) & X2 & P2).
    destruct (set_prev_ok m2 c h) as (m3 & E3 & (F3 & O3 & C3 & L3) & P3 & X3); [now apply L2|].
    destruct (set_next_ok m3 h c) as (m4 & E4 & (F4 & O4 & C4 & L4) & X4 & P4).
    { apply L3, L2, Lo. left. apply Hlive. now left. }
    destruct (set_prev_ok m4 b c) as (m5 & E5 & (F5 & O5 & C5 & L5) & P5 & X5).
    { apply L4, L3, L2, Lo. left. now apply Hlive. }
    exists b, m2, m3, m4, m5.
    split; [exact Hn|]. split; [exact E2|]. split; [exact E3|]. split; [exact E4|]. split; [exact E5|].
    split; [rewrite F5, F4, F3, F2; reflexivity|].
    assert (Hdn : NoDup (r ++ [h])).
    { apply (Permutation_NoDup (l := h :: r)); [apply Permutation_cons_append|exact Hd]. }
    split.
    { split.
      - rewrite <- Eq. apply NoDup_cons; [|exact Hdn]. intros Hin. apply in_app_iff in Hin.
        apply (Hcf c); [cbn in *; tauto|reflexivity].
      - assert (Hch : chain m5 (r ++ [h])).
        { apply (chain_frame m); [| |apply (chain_tl m h), Hc].
          - intros a Ha. rewrite removelast_last in Ha.
            assert (a <> h) by (intros ->; now inversion Hd).
            assert (Hac : a <> c) by (apply Hcf; now right).
            rewrite X5, (next_cells m3 m4 a (O4 a H)), X3, (next_cells m1 m2 a (O2 a Hac)).
            now apply next_cells, O1.
          - intros a Ha. rewrite Eq in Ha. cbn [tl] in Ha.
            assert (Hab : a <> b) by (intros ->; rewrite Eq in Hdn; now inversion Hdn).
            assert (Hac : a <> c).
            { apply Hcf. assert (In a (r ++ [h])) by (rewrite Eq; now right). apply in_app_iff in H. cbn in *. tauto. }
            rewrite (prev_cells m4 m5 a (O5 a Hab)), P4, (prev_cells m2 m3 a (O3 a Hac)), P2.
            now apply prev_cells, O1. }
        change (chain m5 (c :: (b :: q) ++ [c])). rewrite <- Eq, <- app_assoc. cbn [app].
        assert (Hlcb : linked m5 c b).
        { split; [|exact P5].
          rewrite X5, (next_cells m3 m4 c), X3; [exact X2|]. apply O4. intros E. apply (Hcf h); [now left|auto]. }
        assert (Hlhc : linked m5 h c).
        { split; [now rewrite X5|].
          rewrite (prev_cells m4 m5 c), P4; [exact P3|]. apply O5. intros E. apply (Hcf b); [exact Hb|auto]. }
        assert (Hcc : chain m5 ((c :: r) ++ [h; c])); [|exact Hcc].
        apply chain_snoc. split; [|exact Hlhc]. cbn [app]. rewrite Eq in *. split; [exact Hlcb|exact Hch]. }
    split.
    { intros a Ha. rewrite O5, O4, O3, O2, O1; [reflexivity|..]; intros ->; apply Ha; cbn in *; tauto. }
    split.
    { apply C5, C4, C3, C2. unfold m1, new_node, carries; cbn. eexists. rewrite upd_same. split; reflexivity. }
    split.
    { intros a x Hx. apply C5, C4, C3, C2. destruct Hx as (n & Hxn & Hxd). exists n.
      rewrite O1; [auto|]. intros ->. assert (live m c) as Hl by (unfold live; rewrite Hxn; discriminate).
      apply Hs in Hl. unfold c in *. lia. }
    intros a. rewrite L5, L4, L3, L2. apply Lo.
  Qed.

  (** ** The operations *)
  Definition frame (m m' : mem) (ns ns' : list nat) : Prop :=
    (forall a, live m a -> ~ In a ns -> cells m' a = cells m a) /\
    (forall a, live m' a <-> (live m a /\ ~ In a ns) \/ In a ns').

  Lemma forall2_len {A B} (P : A -> B -> Prop) l l' : Forall2 P l l' -> length l = length l'.
  Proof. induction 1; cbn; congruence. Qed.

  Lemma add_holds (m : mem) l ns xs d :
    sound m -> holds_in m l ns xs ->
    exists m' l' ns' xs', cl_add m l d = Ok (m', l', fresh m) /\ sound m' /\ holds_in m' l' ns' xs' /\
      makes (OAdd d) xs xs' NNone /\ frame m m' ns ns' /\
      (forall a, In a ns' -> In a ns \/ a = fresh m) /\ (forall a, live m a -> live m' a).
  Proof.
    intros Hs (Hsz & Hh & Hr & Hx). unfold cl_add, size_of. rewrite Hsz. cbn [obind].
    destruct xs as [|x xs]; inversion Hx as [|h y ns0 ys Hcx Hxs]; subst.
    - cbn [length]. set (c := fresh m). set (m1 := fst (new_node m d)).
      assert (Lc : live m1 c) by (unfold live, m1, new_node, c; cbn; rewrite upd_same; discriminate).
      change (new_node m d) with (m1, c).
      assert (O1 : forall a, a <> c -> cells m1 a = cells m a) by (intros a Ha; now apply upd_other).
      assert (Lo : forall a, live m1 a <-> live m a \/ a = c).
      { intros a. destruct (Nat.eq_dec a c) as [->|Ha]; [tauto|]. unfold live. rewrite O1 by assumption. tauto. }
      destruct (set_prev_ok m1 c c Lc) as (m2 & E2 & (F2 & O2 & C2 & L2) & P2 & X2).
      destruct (set_next_ok m2 c c) as (m3 & E3 & (F3 & O3 & C3 & L3) & X3 & P3); [now apply L2|].
      rewrite E2. cbn [obind]. rewrite E3. cbn [obind].
      exists m3, (CL (Some (Some c)) (Some 1)), [c], [d]. split; [reflexivity|].
      split.
      { intros a Ha. apply L3, L2, Lo in Ha. rewrite F3, F2. unfold m1, new_node; cbn.
        destruct Ha as [Ha| ->]; [apply Hs in Ha; lia|unfold c; lia]. }
      split.
      { split; [reflexivity|]. split; [reflexivity|]. split.
        - split; [apply NoDup_cons; [easy|apply NoDup_nil]|]. cbn. split; [|exact I].
          split; [exact X3|]. now rewrite P3.
        - constructor; [|constructor]. apply C3, C2. unfold m1, new_node, carries; cbn. eexists.
          unfold c. rewrite upd_same. split; reflexivity. }
      split; [split; reflexivity|]. split.
      { split.
        - intros a Ha _. assert (a <> c) by (intros ->; apply Hs in Ha; unfold c in *; lia).
          rewrite O3, O2, O1; auto.
        - intros a. rewrite L3, L2, Lo. cbn. intuition. }
      split; [intros a [<-|[]]; now right|]. intros a Ha. apply L3, L2, Lo. now left.
    - cbn [length]. unfold head_of. rewrite Hh. cbn [hd_error obind].
      assert (Hlive : forall a, In a (h :: ns0) -> live m a) by (intros a Ha; now apply (all_live m (h :: ns0) (x :: xs))).
      destruct (insert_ok m h ns0 d Hs Hr Hlive)
        as (next & m2 & m3 & m4 & m5 & En & E2 & E3 & E4 & E5 & F & R5 & O & Cc & C & L).
      rewrite En. cbn [obind].
      set (m1 := fst (new_node m d)) in *. change (new_node m d) with (m1, fresh m). cbv beta iota.
      rewrite E2. cbn [obind]. rewrite E3. cbn [obind]. rewrite E4. cbn [obind]. rewrite E5. cbn [obind].
      exists m5, (CL (Some (Some (fresh m))) (Some (S (S (length xs))))), (fresh m :: ns0 ++ [h]), (d :: xs ++ [x]).
      split; [reflexivity|]. split.
      { intros a Ha. apply L in Ha. rewrite F. destruct Ha as [Ha| ->]; [apply Hs in Ha; lia|lia]. }
      split.
      { split; [cbn; rewrite app_length; cbn; f_equal; lia|]. split; [reflexivity|]. split; [exact R5|].
        constructor; [exact Cc|]. apply Forall2_app.
        - clear - C Hxs. induction Hxs; constructor; auto.
        - constructor; [now apply C|constructor]. }
      split; [split; reflexivity|]. split.
      { split.
        - intros a Ha Hin. apply O. intros [<-|Hb]; [apply Hs in Ha; lia|contradiction].
        - intros a. rewrite L. cbn. rewrite in_app_iff. cbn.
          destruct (in_dec Nat.eq_dec a (h :: ns0)) as [Hi|Hi].
          + pose proof (Hlive a Hi). cbn in Hi. intuition.
          + cbn in Hi. intuition. }
      split.
      { intros a [<-|Ha]; [now right|]. left. apply in_app_iff in Ha. cbn in *. tauto. }
      intros a Ha. apply L. now left.
  Qed.

  Lemma delete_holds (m : mem) l ns xs :
    sound m -> holds_in m l ns xs ->
    exists m' l' ns' xs' b, cl_delete m l = Ok (m', l', b) /\ sound m' /\ holds_in m' l' ns' xs' /\
      makes ODelete xs xs' (NBool b) /\ frame m m' ns ns' /\ incl ns' ns.
  Proof.
    intros Hs Hh0. pose proof Hh0 as (Hsz & Hh & Hr & Hx). unfold cl_delete, size_of. rewrite Hsz. cbn [obind].
    destruct xs as [|x xs]; inversion Hx as [|h y ns0 ys Hcx Hxs]; subst.
    - cbn [length]. exists m, l, [], [], false. split; [reflexivity|]. split; [exact Hs|]. split; [exact Hh0|].
      split; [split; reflexivity|]. split; [|easy]. split; [auto|]. intros a. cbn. tauto.
    - assert (Hlive : forall a, In a (h :: ns0) -> live m a) by (intros a Ha; now apply (all_live m (h :: ns0) (x :: xs))).
      cbn [length]. unfold head_of. rewrite Hh. cbn [hd_error obind].
      destruct xs as [|x2 xs]; inversion Hxs as [|h2 y ns1 ys Hcx2 Hxs2]; subst.
      + cbn [length]. destruct (delete_ok m h) as (m1 & E1 & F1 & O1 & N1); [apply Hlive; now left|].
        rewrite E1. cbn [obind]. exists m1, (CL (Some None) (Some 0)), [], [], true.
        split; [reflexivity|].
        assert (L1 : forall a, live m1 a <-> live m a /\ a <> h).
        { intros a. unfold live. destruct (Nat.eq_dec a h) as [->|Ha]; [rewrite N1; tauto|].
          rewrite O1 by assumption. tauto. }
        split; [intros a Ha; apply L1 in Ha; rewrite F1; now apply Hs|].
        split; [split; [reflexivity|]; split; [reflexivity|]; split; [split; [apply NoDup_nil|exact I]|constructor]|].
        split; [split; reflexivity|]. split; [|easy]. split.
        * intros a _ Hin. apply O1. intros ->. apply Hin. now left.
        * intros a. rewrite L1. cbn. intuition.
      + cbn [length].
        destruct (remove_ok m h (h2 :: ns1) Hr ltac:(discriminate) Hlive)
          as (next & prev & m1 & m2 & m3 & En & Ep & Eh & E1 & E2 & E3 & F & R3 & O & C & L).
        rewrite En. cbn [obind]. rewrite Ep. cbn [obind]. rewrite E1. cbn [obind]. rewrite E2. cbn [obind].
        rewrite E3. cbn [obind]. injection Eh as <-.
        exists m3, (CL (Some (Some h2)) (Some (S (length xs)))), (h2 :: ns1), (x2 :: xs), true.
        split; [reflexivity|].
        split; [intros a Ha; apply L in Ha; rewrite F; now apply Hs|].
        destruct Hr as [Hd _]. inversion Hd as [|? ? Hnh Hd']; subst.
        split.
        { split; [reflexivity|]. split; [reflexivity|]. split; [exact R3|].
          assert (K : forall ks zs, ~ In h ks -> Forall2 (carries m) ks zs -> Forall2 (carries m3) ks zs).
          { clear - C. intros ks zs Hk. induction 1 as [|k z ks zs Hc _ IH]; [constructor|]. constructor.
            - apply C; [intros ->; apply Hk; now left|exact Hc].
            - apply IH. intros Hi. apply Hk. now right. }
          now apply K. }
        split; [split; reflexivity|]. split; [|intros a Ha; now right]. split.
        * intros a _ Hin. now apply O.
        * intros a. rewrite L.
          destruct (in_dec Nat.eq_dec a (h2 :: ns1)) as [Hi|Hi].
          -- pose proof (Hlive a (or_intror Hi)). assert (a <> h) by congruence. tauto.
          -- cbn in *. intuition.
  Qed.

  Lemma holds_rotate (m : mem) l p q xs ys a :
    length p = length xs ->
    holds_in m l (p ++ q) (xs ++ ys) -> hd_error (q ++ p) = Some a ->
    holds_in m (CL (Some (Some a)) (csize l)) (q ++ p) (ys ++ xs).
  Proof.
    intros Hl (Hsz & Hh & Hr & Hx) Ha. split; [cbn; rewrite Hsz; f_equal; rewrite !app_length; lia|].
    split; [cbn; now rewrite Ha|]. split; [now apply ring_rotate_app|].
    assert (Hx2 : Forall2 (carries m) p xs /\ Forall2 (carries m) q ys).
    { clear - Hl Hx. revert xs Hl Hx. induction p as [|c p IH]; intros [|x xs] Hl Hx; try discriminate.
      - split; [constructor|exact Hx].
      - cbn in *. inversion Hx; subst. destruct (IH xs) as [K1 K2]; [congruence|assumption|].
        split; [now constructor|exact K2]. }
    apply Forall2_app; tauto.
  Qed.

  Lemma walk_ok (m : mem) : forall p e q h r,
    p ++ e :: q = h :: r -> ring m (h :: r) -> walk m h (length p) = Ok e.
  Proof.
    intros p. induction p as [|a p IH] using rev_ind; intros e q h r E Hr.
    - cbn in *. injection E as <- <-. reflexivity.
    - rewrite app_length, Nat.add_1_r.
      assert (Hw : walk m h (length p) = Ok a).
      { apply (IH a (e :: q) h r); [|exact Hr]. now rewrite <- E, <- app_assoc. }
      assert (Hn : next_of m a = Ok e).
      { rewrite <- E, <- app_assoc in Hr. cbn [app] in Hr. apply ring_rotate_app in Hr. cbn [app] in Hr.
        now apply (ring_next m a e _) in Hr. }
      clear - Hw Hn. revert h Hw. induction (length p) as [|n IHn]; intros h Hw.
      + cbn in *. injection Hw as ->. now rewrite Hn.
      + cbn [walk] in *. destruct (next_of m h) as [b| |] eqn:Eb; cbn [obind] in *; try discriminate.
        apply IHn in Hw. exact Hw.
  Qed.

  Lemma delete_at_holds (m : mem) l p e q xs x ys :
    sound m -> length p = length xs -> holds_in m l (p ++ e :: q) (xs ++ x :: ys) ->
    exists m' l', cl_delete_at m l e = Ok (m', l', true) /\ sound m' /\
      holds_in m' l' (p ++ q) (xs ++ ys) /\ frame m m' (p ++ e :: q) (p ++ q).
  Proof.
    intros Hs Hl Hh0. pose proof Hh0 as (Hsz & Hh & Hr & Hx). unfold cl_delete_at, size_of. rewrite Hsz.
    cbn [obind]. rewrite app_length. cbn [length].
    assert (Hlive : forall a, In a (p ++ e :: q) -> live m a) by (intros a Ha; now apply (all_live m _ _ a Hx)).
    assert (Hx2 : Forall2 (carries m) p xs /\ carries m e x /\ Forall2 (carries m) q ys).
    { clear - Hl Hx. revert xs Hl Hx. induction p as [|c p IH]; intros [|z xs] Hl Hx; try discriminate.
      - cbn in Hx. inversion Hx; subst. split; [constructor|auto].
      - cbn in *. inversion Hx; subst. destruct (IH xs) as [K1 K2]; [congruence|assumption|].
        split; [now constructor|exact K2]. }
    destruct Hx2 as (Hxp & Hxe & Hxq).
    pose proof (forall2_len _ _ _ Hxq) as Hlq.
    destruct (p ++ q) as [|g gs] eqn:Epq.
    - assert (p = []) by (destruct p; [reflexivity|discriminate]). subst p. cbn in Epq. subst q.
      assert (xs = []) by (destruct xs; [reflexivity|discriminate]). subst xs.
      assert (ys = []) by (destruct ys; [reflexivity|discriminate]). subst ys.
      cbn [length Nat.add app] in *. unfold head_of. rewrite Hh. cbn [hd_error obind].
      destruct (delete_ok m e) as (m1 & E1 & F1 & O1 & N1); [apply Hlive; now left|].
      rewrite E1. cbn [obind]. exists m1, (CL (Some None) (Some 0)).
      assert (L1 : forall a, live m1 a <-> live m a /\ a <> e).
      { intros a. unfold live. destruct (Nat.eq_dec a e) as [->|Ha]; [rewrite N1; tauto|].
        rewrite O1 by assumption. tauto. }
      split; [reflexivity|].
      split; [intros a Ha; apply L1 in Ha; rewrite F1; now apply Hs|].
      split; [split; [reflexivity|]; split; [reflexivity|]; split; [split; [apply NoDup_nil|exact I]|constructor]|].
      split.
      * intros a _ Hin. apply O1. intros ->. apply Hin. now left.
      * intros a. rewrite L1. cbn. intuition.
    - assert (Hlen : length xs + S (length ys) = S (S (length gs))).
      { rewrite <- Hl, <- Hlq, Nat.add_succ_r, <- app_length, Epq. reflexivity. }
      rewrite Hlen.
      assert (Hre : ring m (e :: q ++ p)) by (change (e :: q ++ p) with ((e :: q) ++ p); now apply ring_rotate_app).
      assert (Hne : q ++ p <> []).
      { intros E. apply app_eq_nil in E. destruct E as [-> ->]. discriminate. }
      destruct (remove_ok m e (q ++ p) Hre Hne)
          as (next & prev & m1 & m2 & m3 & En & Ep & Eh & E1 & E2 & E3 & F & R3 & O & C & L).
      { intros a Ha. apply Hlive. rewrite in_app_iff. cbn in Ha. rewrite in_app_iff in Ha. cbn. tauto. }
      rewrite En. cbn [obind]. rewrite Ep. cbn [obind]. rewrite E1. cbn [obind].
      assert (Hdup : ~ In e (p ++ q)).
      { destruct Hr as [Hd _]. now apply NoDup_remove_2 in Hd. }
      assert (Hhead : exists h, chead l = Some (Some h) /\ hd_error (p ++ q) = Some (if e =? h then next else h)).
      { rewrite Hh. destruct p as [|h p].
        - exists e. split; [reflexivity|]. rewrite Nat.eqb_refl. cbn. now rewrite app_nil_r in Eh.
        - exists h. split; [reflexivity|]. cbn. replace (e =? h) with false; [reflexivity|].
          symmetry. apply Nat.eqb_neq. intros ->. apply Hdup. now left. }
      destruct Hhead as (h & Hch & Hhd). unfold head_of. rewrite Hch. cbn [obind].
      rewrite E2. cbn [obind]. rewrite E3. cbn [obind].
      do 2 eexists. split; [reflexivity|].
      split; [intros a Ha; apply L in Ha; rewrite F; now apply Hs|].
      rewrite <- Epq. split.
      { split; [cbn; f_equal; rewrite app_length; lia|]. split; [cbn [chead]; now rewrite Hhd|].
        split; [now apply ring_rotate_app|].
        assert (K : forall ks zs, ~ In e ks -> Forall2 (carries m) ks zs -> Forall2 (carries m3) ks zs).
        { clear - C. intros ks zs Hk. induction 1 as [|k z ks zs Hc _ IH]; [constructor|]. constructor.
          - apply C; [intros ->; apply Hk; now left|exact Hc].
          - apply IH. intros Hi. apply Hk. now right. }
        rewrite in_app_iff in Hdup. apply Forall2_app; apply K; tauto. }
      split.
      * intros a _ Hin. apply O. intros Ha. apply Hin. rewrite in_app_iff. cbn in Ha. rewrite in_app_iff in Ha.
        cbn. tauto.
      * intros a. rewrite L. rewrite !in_app_iff in *. cbn.
        destruct (Nat.eq_dec a e) as [->|Hae]; [tauto|].
        destruct (in_dec Nat.eq_dec a (p ++ q)) as [Hi|Hi].
        -- assert (live m a) by (apply Hlive; rewrite in_app_iff in *; cbn; tauto). rewrite in_app_iff in Hi. tauto.
        -- rewrite in_app_iff in Hi. intuition.
  Qed.

  Lemma clear_holds (xs : list (option T)) : forall fuel (m : mem) l ns,
    length xs < fuel -> sound m -> holds_in m l ns xs ->
    exists m' l', cl_clear fuel m l = Ok (m', l') /\ sound m' /\ holds_in m' l' [] [] /\ frame m m' ns [].
  Proof.
    induction xs as [|x xs IH]; intros fuel m l ns Hf Hs Hh.
    - destruct fuel as [|f]; [cbn in Hf; lia|]. cbn [cl_clear].
      destruct (delete_holds m l ns [] Hs Hh) as (m' & l' & ns' & xs' & b & E & Hs' & Hh' & (-> & Eb) & Hfr & _).
      injection Eb as ->. rewrite E. cbn [obind]. exists m', l'.
      assert (ns' = []) by (destruct Hh' as (_ & _ & _ & Hx); now inversion Hx). subst ns'. auto.
    - destruct fuel as [|f]; [cbn in Hf; lia|]. cbn [cl_clear].
      destruct (delete_holds m l ns (x :: xs) Hs Hh) as (m1 & l1 & ns1 & xs1 & b & E & Hs1 & Hh1 & (-> & Eb) & (Hf1 & Hl1) & Hincl).
      injection Eb as ->. rewrite E. cbn [obind].
      destruct (IH f m1 l1 ns1 ltac:(cbn in Hf; lia) Hs1 Hh1) as (m' & l' & E' & Hs' & Hh' & (Hf2 & Hl2)).
      rewrite E'. exists m', l'. split; [reflexivity|]. split; [exact Hs'|]. split; [exact Hh'|]. split.
      + intros a Ha Hin. rewrite Hf2; [now apply Hf1| |].
        * apply Hl1. left. auto.
        * intros Hi. apply Hin. now apply Hincl.
      + intros a. rewrite Hl2, Hl1. cbn. split.
        * intros [[[H|H] H2]|[]]; [left; exact H|contradiction].
        * intros [[H H2]|[]]. left. split; [left; auto|]. intros Hi. apply H2. now apply Hincl.
  Qed.

  (** ** One operation *)
  Lemma step_holds (m : mem) l ns xs o :
    sound m -> holds_in m l ns xs -> may o xs ->
    exists m' l' r ns' xs', cl_step m l o = Ok (m', l', r) /\ sound m' /\ holds_in m' l' ns' xs' /\
      makes o xs xs' r /\ frame m m' ns ns' /\ (forall a, In a ns' -> live m a -> In a ns).
  Proof.
    intros Hs Hh Hm.
    assert (Hself : frame m m ns ns).
    { split; [auto|]. intros a. destruct (in_dec Nat.eq_dec a ns) as [Hi|Hi].
      - destruct Hh as (_ & _ & _ & Hx). pose proof (all_live m ns xs a Hx Hi). tauto.
      - tauto. }
    destruct o; cbn [cl_step may] in *.
    - destruct (add_holds m l ns xs d Hs Hh) as (m' & l' & ns' & xs' & E & H1 & H2 & H3 & H4 & H5 & _).
      rewrite E. cbn [obind]. do 5 eexists. split; [reflexivity|]. split; [exact H1|]. split; [exact H2|].
      split; [exact H3|]. split; [exact H4|]. intros a Ha Hl. apply H5 in Ha. destruct Ha as [Ha| ->]; [exact Ha|].
      apply Hs in Hl. lia.
    - pose proof Hh as (Hsz & Hhd & Hr & Hx). unfold cl_next, size_of. rewrite Hsz. cbn [obind].
      destruct xs as [|x xs]; inversion Hx as [|h y ns0 ys Hcx Hxs]; subst.
      + cbn. exists m, l, (NBool false), [], []. split; [reflexivity|]. auto.
      + cbn [length]. unfold head_of. rewrite Hhd. cbn [hd_error obind].
        assert (Hn : exists a, next_of m h = Ok a /\ hd_error (ns0 ++ [h]) = Some a).
        { destruct ns0 as [|b r]; [exists h; split; [now apply ring_next1|reflexivity]|].
          exists b. split; [now apply (ring_next m h b r)|reflexivity]. }
        destruct Hn as (a & En & Ea). rewrite En. cbn [obind fst snd].
        do 3 eexists. exists (ns0 ++ [h]), (xs ++ [x]). split; [reflexivity|]. split; [exact Hs|]. split.
        * pose proof (holds_rotate m l [h] ns0 [x] xs a eq_refl Hh Ea) as K. rewrite Hsz in K. exact K.
        * split; [split; reflexivity|]. destruct Hself as [H1 H2].
          split; [|intros c Hc _; apply in_app_iff in Hc; cbn in *; tauto]. split.
          -- auto.
          -- intros c. rewrite H2. rewrite !in_app_iff. cbn. tauto.
    - pose proof Hh as (Hsz & Hhd & Hr & Hx). unfold cl_prev, size_of. rewrite Hsz. cbn [obind].
      destruct xs as [|x0 xs0] using rev_ind.
      + inversion Hx; subst. cbn. exists m, l, (NBool false), [], []. split; [reflexivity|].
        split; [exact Hs|]. split; [exact Hh|]. split; [left; auto|]. auto.
      + clear IHxs0.
        assert (Hns : exists ns0 z, ns = ns0 ++ [z] /\ length ns0 = length xs0).
        { apply forall2_len in Hx. rewrite app_length in Hx. cbn in Hx.
          destruct ns as [|h0 ns1] using rev_ind; [cbn in Hx; lia|]. exists ns1, h0. split; [reflexivity|].
          rewrite app_length in Hx. cbn in Hx. lia. }
        destruct Hns as (ns0 & z & -> & Hlen).
        assert (Hp : exists h, chead l = Some (Some h) /\ prev_of m h = Ok z).
        { destruct ns0 as [|h r]; [exists z; split; [exact Hhd|now apply ring_prev1]|].
          exists h. split; [exact Hhd|]. now apply (ring_prev m h r). }
        destruct Hp as (h & Hc & Ep).
        rewrite app_length. cbn [length]. rewrite Nat.add_1_r. unfold head_of. rewrite Hc. cbn [obind].
        rewrite Ep. cbn [obind fst snd].
        do 3 eexists. exists ([z] ++ ns0), ([x0] ++ xs0). split; [reflexivity|]. split; [exact Hs|]. split.
        * pose proof (holds_rotate m l ns0 [z] xs0 [x0] z Hlen Hh eq_refl) as K.
          rewrite Hsz, app_length, Nat.add_1_r in K. exact K.
        * split; [right; exists xs0, x0; auto|]. destruct Hself as [H1 H2].
          split; [|intros c Hin _; apply in_app_iff; cbn in *; tauto]. split.
          -- auto.
          -- intros c. rewrite H2. rewrite !in_app_iff. cbn. tauto.
    - destruct (delete_holds m l ns xs Hs Hh) as (m' & l' & ns' & xs' & b & E & H1 & H2 & H3 & H4 & H5).
      rewrite E. cbn [obind]. do 5 eexists. split; [reflexivity|]. split; [exact H1|]. split; [exact H2|]. auto.
    - pose proof Hh as (Hsz & Hhd & Hr & Hx). pose proof (forall2_len _ _ _ Hx) as Hlen.
      destruct (nth_error xs i) as [x|] eqn:Ex; [|apply nth_error_None in Ex; lia].
      destruct (nth_error ns i) as [e|] eqn:Ee; [|apply nth_error_None in Ee; lia].
      destruct (nth_error_split xs i Ex) as (xp & xq & -> & Hxp).
      destruct (nth_error_split ns i Ee) as (p & q & -> & Hp).
      destruct (delete_at_holds m l p e q xp x xq Hs ltac:(lia) Hh) as (m' & l' & E & H1 & H2 & H3).
      assert (Hhead : exists h r, p ++ e :: q = h :: r) by (destruct p; cbn; eauto).
      destruct Hhead as (h & r & Ehr). unfold head_of. rewrite Hhd, Ehr. cbn [hd_error obind].
      rewrite <- Hp. rewrite (walk_ok m p e q h r Ehr) by (now rewrite <- Ehr). cbn [obind].
      rewrite E. cbn [obind]. do 5 eexists. split; [reflexivity|]. split; [exact H1|]. split; [exact H2|].
      split; [|split; [rewrite <- Ehr; exact H3|]].
      2: { intros a Ha _. rewrite <- Ehr. apply in_app_iff in Ha. apply in_app_iff. cbn. tauto. }
      exists xp, x, xq. split; [reflexivity|]. split; [lia|]. auto.
    - pose proof Hh as (Hsz & _). unfold size_of. rewrite Hsz. cbn [obind].
      destruct (clear_holds xs (S (length xs)) m l ns ltac:(lia) Hs Hh) as (m' & l' & E & H1 & H2 & H3).
      rewrite E. cbn [obind fst snd]. do 5 eexists. split; [reflexivity|]. split; [exact H1|]. split; [exact H2|].
      split; [split; reflexivity|]. split; [exact H3|]. easy.
    - destruct Hm as (x & q & ->). pose proof Hh as (Hsz & Hhd & Hr & Hx).
      inversion Hx as [|h y ns0 ys (n & Hn & Hd) Hxs]; subst. unfold cl_data, head_of. rewrite Hhd. cbn [hd_error obind].
      unfold load. rewrite Hn. cbn [obind]. rewrite Hd. cbn [obind].
      exists m, l, (NData x), (h :: ns0), (Some x :: q). split; [reflexivity|]. split; [exact Hs|]. split; [exact Hh|].
      split; [split; [reflexivity|now exists x, q]|]. auto.
    - pose proof Hh as (Hsz & _). unfold size_of. rewrite Hsz. cbn [obind].
      exists m, l, (NSize (length xs)), ns, xs. split; [reflexivity|]. split; [exact Hs|]. split; [exact Hh|].
      split; [split; reflexivity|]. auto.
    - pose proof Hh as (Hsz & _). unfold size_of. rewrite Hsz. cbn [obind].
      eexists m, l, _, ns, xs. split; [reflexivity|]. split; [exact Hs|]. split; [exact Hh|].
      split; [|auto]. split; [reflexivity|]. eexists. split; [reflexivity|].
      rewrite Nat.eqb_eq. split; [|now intros ->]. intros H. now destruct xs.
  Qed.

  Lemma frame_trans (m1 m2 m3 : mem) a b c :
    frame m1 m2 a b -> frame m2 m3 b c -> (forall x, In x b -> live m1 x -> In x a) -> frame m1 m3 a c.
  Proof.
    intros [H1 L1] [H2 L2] Hb. split.
    - intros x Hx Ha. rewrite H2; [now apply H1| |].
      + apply L1. left. auto.
      + intros Hi. apply Ha. now apply Hb.
    - intros x. rewrite L2, L1. split.
      + intros [[[H|H] Hn]|H]; [left; exact H|contradiction|now right].
      + intros [[Hl Hn]|H]; [|now right]. left. split; [left; auto|]. intros Hi. apply Hn. now apply Hb.
  Qed.

  Lemma run_holds ops : forall (m : mem) l ns xs,
    sound m -> holds_in m l ns xs -> may_all ops xs ->
    exists m' l' rs ns' xs', cl_run m l ops = Ok (m', l', rs) /\ sound m' /\ holds_in m' l' ns' xs' /\
      makes_all ops xs xs' rs /\ frame m m' ns ns' /\ (forall a, In a ns' -> live m a -> In a ns).
  Proof.
    induction ops as [|o ops IH]; intros m l ns xs Hs Hh Hm; cbn [cl_run may_all] in *.
    - exists m, l, [], ns, xs. split; [reflexivity|]. split; [exact Hs|]. split; [exact Hh|].
      split; [reflexivity|]. split; [|auto]. split; [auto|]. intros a.
      destruct (in_dec Nat.eq_dec a ns) as [Hi|Hi]; [|tauto].
      destruct Hh as (_ & _ & _ & Hx). pose proof (all_live m ns xs a Hx Hi). tauto.
    - destruct Hm as [Hm Hrest].
      destruct (step_holds m l ns xs o Hs Hh Hm) as (m1 & l1 & r & ns1 & xs1 & E & Hs1 & Hh1 & Hk & Hf & Hsub).
      rewrite E. cbn [obind].
      destruct (IH m1 l1 ns1 xs1 Hs1 Hh1 (Hrest _ _ Hk)) as (m2 & l2 & rs & ns2 & xs2 & E2 & Hs2 & Hh2 & Hk2 & Hf2 & Hsub2).
      rewrite E2. cbn [obind]. exists m2, l2, (r :: rs), ns2, xs2. split; [reflexivity|].
      split; [exact Hs2|]. split; [exact Hh2|]. split; [exists xs1; auto|].
      split; [now apply (frame_trans m m1 m2 ns ns1 ns2)|].
      intros a Ha Hl. destruct (in_dec Nat.eq_dec a ns) as [Hi|Hi]; [exact Hi|].
      apply Hsub; [|exact Hl]. apply Hsub2; [exact Ha|]. apply Hf. left. auto.
  Qed.

  (** ** Copying *)
  Definition put (d : option T) (xs : list (option T)) : list (option T) :=
    match xs with [] => [d] | x :: q => d :: q ++ [x] end.
  Lemma puts zs : forall z, fold_left (fun xs d => put d xs) (zs ++ [z]) [] = z :: zs.
  Proof.
    induction zs as [|w zs IH] using rev_ind; intros z; [reflexivity|].
    rewrite fold_left_app, IH. reflexivity.
  Qed.

  Lemma carries_frame (m m' : mem) q zs :
    (forall a, In a q -> cells m' a = cells m a) -> Forall2 (carries m) q zs -> Forall2 (carries m') q zs.
  Proof.
    intros Hf. induction 1 as [|a x ns xs (n & Hn & Hd) _ IH]; [constructor|]. constructor.
    - exists n. rewrite Hf by now left. auto.
    - apply IH. intros b Hb. apply Hf. now right.
  Qed.

  Lemma copy_ok q0 : forall fuel (m : mem) l ns xs cur stop zs,
    length q0 < fuel -> sound m -> holds_in m l ns xs ->
    chain m (cur :: q0 ++ [stop]) -> ~ In stop q0 -> Forall2 (carries m) (q0 ++ [stop]) zs ->
    (forall a, In a (cur :: q0 ++ [stop]) -> live m a /\ ~ In a ns) ->
    exists m' l' ns', copy_loop fuel m l cur stop = Ok (m', l') /\ sound m' /\
      holds_in m' l' ns' (fold_left (fun xs d => put d xs) zs xs) /\
      frame m m' ns ns' /\ (forall a, In a ns' -> live m a -> In a ns) /\ (forall a, live m a -> live m' a).
  Proof.
    induction q0 as [|c q0 IH]; intros fuel m l ns xs cur stop zs Hfuel Hs Hh Hc Hstop Hz Hout;
      (destruct fuel as [|f]; [cbn in Hfuel; lia|]); cbn [copy_loop app] in *.
    - destruct Hc as [[Hn _] _]. rewrite Hn. cbn [obind]. inversion Hz as [|? z ? ? (n & Hcn & Hd) Hz']; subst.
      inversion Hz'; subst. unfold load. rewrite Hcn. cbn [obind].
      destruct (add_holds m l ns xs (ndata n) Hs Hh) as (m' & l' & ns' & xs' & E & Hs' & Hh' & Hk & Hf & Hsub & Hli).
      rewrite E. cbn [obind]. rewrite Nat.eqb_refl. exists m', l', ns'. split; [reflexivity|]. split; [exact Hs'|].
      split; [|split; [exact Hf|split; [|exact Hli]]].
      + cbn [fold_left]. destruct Hk as [_ Hk]. unfold put. destruct xs; now rewrite <- Hk.
      + intros a Ha Hl. apply Hsub in Ha. destruct Ha as [Ha| ->]; [exact Ha|]. apply Hs in Hl. lia.
    - destruct Hc as [[Hn Hp] Hc]. rewrite Hn. cbn [obind].
      inversion Hz as [|? z ? zs' (n & Hcn & Hd) Hz']; subst. unfold load. rewrite Hcn. cbn [obind].
      destruct (add_holds m l ns xs (ndata n) Hs Hh) as (m1 & l1 & ns1 & xs1 & E & Hs1 & Hh1 & Hk & Hf & Hsub & Hli).
      rewrite E. cbn [obind].
      replace (c =? stop) with false by (symmetry; apply Nat.eqb_neq; intros ->; apply Hstop; now left).
      assert (Hsame : forall a, In a (c :: q0 ++ [stop]) -> cells m1 a = cells m a).
      { intros a Ha. destruct (Hout a (or_intror Ha)). now apply Hf. }
      destruct (IH f m1 l1 ns1 xs1 c stop zs') as (m' & l' & ns' & E' & Hs' & Hh' & Hf' & Hsub' & Hli').
      + cbn in Hfuel. lia.
      + exact Hs1.
      + exact Hh1.
      + apply (chain_frame m); [| |exact Hc].
        * intros a Ha. apply next_cells, Hsame.
          change (c :: q0 ++ [stop]) with ((c :: q0) ++ [stop]) in *. rewrite removelast_last in Ha.
          apply in_app_iff. now left.
        * intros a Ha. apply prev_cells, Hsame. now right.
      + intros Hi. apply Hstop. now right.
      + apply (carries_frame m); [|exact Hz']. intros a Ha. apply Hsame. now right.
      + intros a Ha. destruct (Hout a (or_intror Ha)) as [Hl Ho]. split; [now apply Hli|].
        intros Hi. apply Hsub in Hi. destruct Hi as [Hi| ->]; [contradiction|]. apply Hs in Hl. lia.
      + rewrite E'. exists m', l', ns'. split; [reflexivity|]. split; [exact Hs'|].
        assert (Hsub1 : forall a, In a ns1 -> live m a -> In a ns).
        { intros a Ha Hl. apply Hsub in Ha. destruct Ha as [Ha| ->]; [exact Ha|]. apply Hs in Hl. lia. }
        split; [|split; [now apply (frame_trans m m1 m' ns ns1 ns')|split]].
        * cbn [fold_left]. replace (put (ndata n) xs) with xs1; [exact Hh'|].
          destruct Hk as [_ Hk]. unfold put. destruct xs; exact Hk.
        * intros a Ha Hl. apply Hsub1; [|exact Hl]. apply Hsub'; [exact Ha|now apply Hli].
        * intros a Ha. apply Hli', Hli, Ha.
  Qed.

  Lemma assign_holds fuel (m : mem) l ns xs rhs nr ys :
    length xs < fuel -> length ys < fuel -> sound m ->
    holds_in m l ns xs -> holds_in m rhs nr ys -> (forall a, In a ns -> ~ In a nr) ->
    exists m' l' ns', cl_assign fuel m l rhs = Ok (m', l') /\ sound m' /\ holds_in m' l' ns' ys /\
      holds_in m' rhs nr ys /\ (forall a, In a ns' -> ~ In a nr) /\ frame m m' ns ns'.
  Proof.
    intros Hfx Hfy Hs Hh Hr Hdis. unfold cl_assign.
    destruct (clear_holds xs fuel m l ns Hfx Hs Hh) as (m1 & l1 & E & Hs1 & Hh1 & Hf). rewrite E. cbn [obind].
    assert (Hlr : forall a, In a nr -> live m a).
    { intros a Ha. destruct Hr as (_ & _ & _ & Hx). now apply (all_live m nr ys). }
    assert (Hr1 : holds_in m1 rhs nr ys).
    { apply (holds_frame m); [|exact Hr]. intros a Ha. apply Hf; [now apply Hlr|]. intros Hi. now apply (Hdis a). }
    pose proof Hr1 as (Hsz & Hhd & [Hd Hc] & Hx). unfold size_of. rewrite Hsz. cbn [obind].
    destruct ys as [|y ys]; inversion Hx as [|h z nr0 zs Hcy Hxs]; subst.
    - cbn [length]. exists m1, l1, []. split; [reflexivity|]. split; [exact Hs1|]. split; [exact Hh1|].
      split; [exact Hr1|]. split; [easy|exact Hf].
    - cbn [length]. unfold head_of. rewrite Hhd. cbn [hd_error obind].
      pose proof (forall2_len _ _ _ Hxs) as Hlen. inversion Hd as [|? ? Hnh Hd']; subst.
      destruct (copy_ok nr0 fuel m1 l1 [] [] h h (ys ++ [y])) as (m' & l' & ns' & E' & Hs' & Hh' & Hf' & Hsub' & Hli').
      + cbn in Hfy. lia.
      + exact Hs1.
      + exact Hh1.
      + exact Hc.
      + exact Hnh.
      + apply Forall2_app; [exact Hxs|]. constructor; [exact Hcy|constructor].
      + intros a Ha. split; [|easy]. apply (all_live m1 (h :: nr0) (y :: ys)); [exact Hx|].
        cbn in Ha. rewrite in_app_iff in Ha. cbn in *. tauto.
      + rewrite E'. exists m', l', ns'. split; [reflexivity|]. split; [exact Hs'|].
        rewrite puts in Hh'. split; [exact Hh'|].
        assert (Hl1 : forall a, In a (h :: nr0) -> live m1 a).
        { intros a Ha. now apply (all_live m1 (h :: nr0) (y :: ys)). }
        split; [|split].
        * apply (holds_frame m1); [|exact Hr1]. intros a Ha. apply Hf'; [now apply Hl1|easy].
        * intros a Ha Hi. apply (Hsub' a Ha). now apply Hl1.
        * destruct Hf as [Hfa Hfl]. destruct Hf' as [Hfa' Hfl']. split.
          -- intros a Hl Ha. rewrite Hfa'; [now apply Hfa| |easy]. apply Hfl. left. auto.
          -- intros a. rewrite Hfl', Hfl. cbn. tauto.
  Qed.
End Proofs.
