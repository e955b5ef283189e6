(** * Proofs about taking a part out of the convex hull *)
From Coq Require Import List Arith Bool Lia.
From Verif Require Import Common HEdgeModel HEdgeSpec HEdgeProofs HPartModel HPartSpec.
Import ListNotations.

Lemma filter_twice (p q r : nat -> bool) l :
  (forall x, In x l -> q x = true -> p x = r x) -> (forall x, In x l -> q x = false -> r x = false) ->
  filter p (filter q l) = filter r l.
Proof.
  induction l as [|x l ih]; intros h1 h2; [reflexivity|]. cbn [filter].
  assert (I : filter p (filter q l) = filter r l) by (apply ih; intros y hy; [apply h1|apply h2]; now right).
  destruct (q x) eqn:e.
  - cbn [filter]. rewrite (h1 x (or_introl eq_refl) e), I. reflexivity.
  - rewrite (h2 x (or_introl eq_refl) e). exact I.
Qed.
Lemma filter_le (p : nat -> bool) l : length (filter p l) <= length l.
Proof. induction l as [|x l ih]; cbn [filter length]; [lia|]. destruct (p x); cbn [length]; lia. Qed.

Fixpoint edges (n : nat) (f : nat -> list nat) : nat := match n with 0 => 0 | S m => length (f m) + edges m f end.
Lemma edges_le n f g : (forall u, length (g u) <= length (f u)) -> edges n g <= edges n f.
Proof. intros h. induction n as [|n ih]; cbn [edges]; [lia|]. specialize (h n). lia. Qed.
Lemma edges_lt n f g v : (forall u, length (g u) <= length (f u)) -> v < n -> length (g v) < length (f v) -> edges n g < edges n f.
Proof.
  intros h. induction n as [|n ih]; intros hv hl; [lia|]. cbn [edges]. pose proof (h n). pose proof (edges_le n f g h).
  destruct (Nat.eq_dec v n) as [->|ne]; [lia|]. specialize (ih ltac:(lia) hl). lia.
Qed.
Lemma edges_one n f v : v < n -> length (f v) <= edges n f.
Proof.
  induction n as [|n ih]; intros h; [lia|]. cbn [edges]. destruct (Nat.eq_dec v n) as [->|]; [lia|]. specialize (ih ltac:(lia)). lia.
Qed.

Section Part.
  Variables (h : hull) (f : nat -> list nat) (ws : list nat) (n : nat).
  Hypothesis W : whole h f.
  Hypothesis small : forall u, n <= u -> f u = [].

  Definition keep (ps : list nat) (e : nat) : bool :=
    match tg h e with Some t => if in_dec Nat.eq_dec t ps then false else true | None => true end.
  (** [ps] have been removed, [qs] are still to be. *)
  Definition pinv (h1 : hull) (f1 : nat -> list nat) (ps qs : list nat) : Prop :=
    whole h1 f1 /\
    (forall u, f1 u = if in_dec Nat.eq_dec u ps then [] else filter (keep ps) (f u)) /\
    (forall u e, In e (f1 u) -> tg h1 e = tg h e) /\
    (forall s e t, In s ps -> In e (f s) -> tg h e = Some t -> In t ps \/ In t qs) /\
    (forall s, In s ps \/ In s qs -> reach h f ws s) /\
    (forall s, In s ws -> In s ps \/ In s qs).

  Lemma pinv_sub h1 f1 ps qs u : pinv h1 f1 ps qs -> incl (f1 u) (f u).
  Proof.
    intros (_ & h2 & _) x hx. rewrite h2 in hx. destruct (in_dec Nat.eq_dec u ps); [destruct hx|]. now apply filter_In in hx.
  Qed.
  Lemma pinv_ext h1 f1 ps qs qs' : (forall x, In x qs <-> In x qs') -> pinv h1 f1 ps qs -> pinv h1 f1 ps qs'.
  Proof.
    intros q (a & b & c & d & e & g). split; [exact a|]. split; [exact b|]. split; [exact c|]. split; [|split].
    - intros s x t h1' h2 h3. rewrite <- q. eapply d; eauto.
    - intros s. rewrite <- q. apply e.
    - intros s. rewrite <- q. apply g.
  Qed.

  Lemma one_ok inner h1 f1 ps qs w : pinv h1 f1 ps qs -> In w qs -> edges n f1 <= inner ->
    exists h2 ts f2, remove_all inner h1 w = Ok (h2, ts) /\ edges n f2 <= edges n f1 /\
      (ts <> [] -> edges n f2 < edges n f1) /\
      forall qs', (forall x, In x qs' \/ x = w <-> In x qs \/ In x ts) -> pinv h2 f2 (w :: ps) qs'.
  Proof.
    intros P hw hi. pose proof P as (W1 & a2 & a3 & a4 & a5 & a6).
    assert (FW : n <= w -> f1 w = []).
    { intros hn. destruct (f1 w) as [|x l] eqn:e; [reflexivity|]. assert (hx : In x (f w)).
      { apply (pinv_sub _ _ _ _ w P). rewrite e. now left. }
      rewrite (small w hn) in hx. destruct hx. }
    destruct (remove_all_ok inner h1 f1 w W1) as (h2 & ts & g & b1 & b2 & b3 & b4 & b5 & b6 & b7).
    { destruct (Nat.lt_ge_cases w n) as [c|c]; [|rewrite FW by exact c; cbn; lia]. pose proof (edges_one n f1 w c). lia. }
    exists h2, ts, g. split; [exact b1|].
    assert (LE : forall u, length (g u) <= length (f1 u)).
    { intros u. destruct (Nat.eq_dec u w) as [->|ne]; [rewrite b4; cbn; lia|]. rewrite b5 by exact ne. apply filter_le. }
    split; [now apply edges_le|]. split.
    - intros ne. destruct ts as [|t ts]; [contradiction|]. destruct (proj1 (b6 t) (or_introl eq_refl)) as (e & he & _).
      apply (edges_lt n f1 g w LE).
      + destruct (Nat.lt_ge_cases w n) as [c|c]; [exact c|]. rewrite FW in he by exact c. destruct he.
      + rewrite b4. destruct (f1 w); [destruct he|cbn; lia].
    - intros qs' Q. split; [exact b2|]. split; [|split; [|split; [|split]]].
      + intros u. destruct (Nat.eq_dec u w) as [->|ne].
        { rewrite b4. destruct (in_dec Nat.eq_dec w (w :: ps)) as [|c]; [reflexivity|]. exfalso. apply c. now left. }
        rewrite b5 by exact ne. pose proof (a2 u) as au. destruct (in_dec Nat.eq_dec u ps) as [c|c].
        { rewrite au. destruct (in_dec Nat.eq_dec u (w :: ps)) as [|d]; [reflexivity|]. exfalso. apply d. now right. }
        destruct (in_dec Nat.eq_dec u (w :: ps)) as [[d|d]|_]; [congruence|contradiction|]. rewrite au. apply filter_twice.
        * intros x hx kx. unfold not_to, keep in *. rewrite (a3 u x) by (rewrite au; apply filter_In; split; [exact hx|exact kx]).
          destruct (tg h x) as [t|]; [|reflexivity]. destruct (in_dec Nat.eq_dec t ps) as [z|z]; [discriminate kx|].
          destruct (Nat.eqb_spec t w) as [->|z2].
          -- destruct (in_dec Nat.eq_dec w (w :: ps)) as [|d]; [reflexivity|]. exfalso. apply d. now left.
          -- destruct (in_dec Nat.eq_dec t (w :: ps)) as [[d|d]|_]; [congruence|contradiction|reflexivity].
        * intros x hx kx. unfold keep in *. destruct (tg h x) as [t|]; [|discriminate kx].
          destruct (in_dec Nat.eq_dec t ps) as [z|z]; [|discriminate kx].
          destruct (in_dec Nat.eq_dec t (w :: ps)) as [|d]; [reflexivity|]. exfalso. apply d. now right.
      + intros u e he. destruct (b7 u e he) as (_ & ->). apply (a3 u). destruct (Nat.eq_dec u w) as [->|ne]; [rewrite b4 in he; destruct he|].
        rewrite b5 in he by exact ne. now apply filter_In in he.
      + assert (K : forall t, In t ps \/ In t qs -> In t (w :: ps) \/ In t qs').
        { intros t [z|z]; [left; now right|]. destruct (proj2 (Q t) (or_introl z)) as [z2| ->]; [now right|left; now left]. }
        intros s e t [<-|hs] he ht; [|apply K; exact (a4 s e t hs he ht)].
        destruct (in_dec Nat.eq_dec w ps) as [c|c]; [apply K; exact (a4 w e t c he ht)|].
        destruct (keep ps e) eqn:ke.
        * assert (In e (f1 w)) as h1w.
          { rewrite a2. destruct (in_dec Nat.eq_dec w ps); [contradiction|]. apply filter_In. auto. }
          assert (In t ts) as hts by (apply b6; exists e; split; [exact h1w|rewrite (a3 w e h1w); exact ht]).
          destruct (proj2 (Q t) (or_intror hts)) as [z| ->]; [now right|left; now left].
        * unfold keep in ke. rewrite ht in ke. destruct (in_dec Nat.eq_dec t ps); [left; now right|discriminate ke].
      + intros s hs. assert (H : (In s ps \/ In s qs) \/ In s ts).
        { destruct hs as [[<-|hs]|hs]; [auto|auto|]. destruct (proj1 (Q s) (or_introl hs)); auto. }
        destruct H as [H|H]; [now apply a5|]. apply b6 in H. destruct H as (e & he & ht).
        eapply reach_step; [apply (a5 w); now right|exact (pinv_sub _ _ _ _ w P e he)|]. rewrite <- (a3 w e he). exact ht.
      + intros s hs. destruct (a6 s hs) as [z|z]; [left; now right|].
        destruct (proj2 (Q s) (or_introl z)) as [z2| ->]; [now right|left; now left].
  Qed.

  (** What a group has pushed. *)
  Definition pz (kept : nat) (ts : list nat) : list (option nat) := match ts with [] => [] | _ => Some kept :: map Some ts end.
  Definition deep (ts : list nat) : bool := match ts with [] => false | _ => true end.
  Lemma group_ok inner kept rs : forall vs h1 f1 ps ts qs rest, pinv h1 f1 ps qs ->
    (forall x, In x qs <-> In x vs \/ In x ts \/ In x rs) -> edges n f1 <= inner ->
    exists h2 f2 ps2 ts2 qs2, group inner h1 kept (map Some vs ++ None :: rest) (deep ts) (pz kept ts) =
        Ok (h2, rest, if deep ts2 then pz kept ts2 ++ [None] else []) /\
      pinv h2 f2 ps2 qs2 /\ (forall x, In x qs2 <-> In x ts2 \/ In x rs) /\ edges n f2 <= edges n f1 /\
      (deep ts2 = true -> deep ts = true \/ edges n f2 < edges n f1).
  Proof.
    induction vs as [|w vs ih]; intros h1 f1 ps ts qs rest P Q hi.
    - cbn [map app group]. exists h1, f1, ps, ts, qs. split; [destruct ts; reflexivity|]. split; [exact P|].
      split; [intros x; rewrite Q; cbn [In]; tauto|]. split; [lia|]. auto.
    - cbn [map app group]. destruct (one_ok inner h1 f1 ps qs w P) as (h2 & t1 & f2 & e & l1 & l2 & N).
      { apply Q. left. now left. }
      { exact hi. }
      rewrite e. cbn [obind].
      assert (P2 : pinv h2 f2 (w :: ps) (vs ++ (ts ++ t1) ++ rs)).
      { apply N. intros x. rewrite Q. cbn [In]. rewrite !in_app_iff. intuition congruence. }
      destruct (ih h2 f2 (w :: ps) (ts ++ t1) (vs ++ (ts ++ t1) ++ rs) rest P2) as (h3 & f3 & ps3 & ts3 & qs3 & e3 & P3 & Q3 & l3 & l4).
      + intros x. rewrite !in_app_iff. tauto.
      + lia.
      + exists h3, f3, ps3, ts3, qs3. split; [|split; [exact P3|split; [exact Q3|split; [lia|]]]].
        * rewrite <- e3. destruct t1 as [|t t1]; [now rewrite app_nil_r|]. destruct ts as [|t' ts]; [reflexivity|].
          cbn [deep pz app]. f_equal. cbn [map]. rewrite map_app. reflexivity.
        * intros d. destruct (l4 d) as [z|z]; [|right; lia]. destruct ts as [|t' ts]; [|now left]. right.
          cbn [app] in z. destruct t1 as [|t t1]; [discriminate z|]. specialize (l2 ltac:(discriminate)). lia.
  Qed.

  Lemma stack_app a b : stack_of (a ++ b) = stack_of a ++ stack_of b.
  Proof. apply flat_map_app. Qed.
  Lemma part_ok inner fuel : forall gs h1 f1 ps qs, pinv h1 f1 ps qs ->
    (forall x, In x qs <-> In x (flat_map snd gs)) -> edges n f1 <= inner -> length gs + edges n f1 <= fuel ->
    exists h2 f2 ps2, remove_part fuel inner h1 (stack_of gs) = Ok h2 /\ pinv h2 f2 ps2 [].
  Proof.
    induction fuel as [|fuel ih]; intros gs h1 f1 ps qs P Q hi hf.
    - destruct gs as [|g gs]; [|cbn [length] in hf; lia]. exists h1, f1, ps. split; [reflexivity|].
      eapply pinv_ext; [|exact P]. intros x. rewrite Q. reflexivity.
    - destruct gs as [|[k vs] gs].
      { exists h1, f1, ps. split; [reflexivity|]. eapply pinv_ext; [|exact P]. intros x. rewrite Q. reflexivity. }
      cbn [stack_of flat_map fst snd app]. fold (stack_of gs). cbn [remove_part]. rewrite <- app_assoc. cbn [app].
      destruct (group_ok inner k (flat_map snd gs) vs h1 f1 ps [] qs (stack_of gs) P) as (h2 & f2 & ps2 & ts2 & qs2 & e & P2 & Q2 & l1 & l2).
      + intros x. rewrite Q. cbn [flat_map snd]. rewrite in_app_iff. cbn [In]. tauto.
      + exact hi.
      + cbn [deep pz] in e. rewrite e. cbn [obind]. cbn [length] in hf. destruct ts2 as [|t ts2].
        * cbn [deep]. rewrite app_nil_r. apply (ih gs h2 f2 ps2 qs2 P2); [|lia|lia]. intros x. rewrite Q2. cbn [In]. tauto.
        * cbn [deep pz] in *. destruct (l2 eq_refl) as [z|z]; [discriminate z|].
          replace (stack_of gs ++ (Some k :: map Some (t :: ts2)) ++ [None]) with (stack_of (gs ++ [(k, t :: ts2)])).
          -- apply (ih _ h2 f2 ps2 qs2 P2); [|lia|rewrite app_length; cbn [length]; lia].
             intros x. rewrite Q2, flat_map_app, in_app_iff. cbn [flat_map snd]. rewrite app_nil_r. tauto.
          -- rewrite stack_app. f_equal. cbn [stack_of flat_map fst snd]. rewrite app_nil_r. reflexivity.
  Qed.

  Lemma start_ok : pinv h f [] ws.
  Proof.
    split; [exact W|]. split; [|split; [reflexivity|split; [intros s e t []|split]]].
    - intros u. cbn [in_dec]. symmetry. apply filter_all. intros x _. unfold keep. destruct (tg h x); reflexivity.
    - intros s [[]|hs]. now apply reach_start.
    - auto.
  Qed.
  Lemma end_ok h2 f2 ps : pinv h2 f2 ps [] ->
    (forall u, reach h f ws u -> f2 u = []) /\ (forall u, ~ reach h f ws u -> f2 u = f u).
  Proof.
    intros (W2 & a2 & a3 & a4 & a5 & a6).
    assert (R : forall u, reach h f ws u -> In u ps).
    { intros u hu. induction hu as [w hw|u e t hu ihu he ht].
      - destruct (a6 w hw) as [z|[]]. exact z.
      - destruct (a4 u e t ihu he ht) as [z|[]]. exact z. }
    split; intros u hu; rewrite a2.
    - destruct (in_dec Nat.eq_dec u ps) as [|c]; [reflexivity|]. destruct (c (R u hu)).
    - destruct (in_dec Nat.eq_dec u ps) as [c|c]; [destruct hu; apply a5; now left|]. apply filter_all. intros x hx.
      unfold keep. destruct W as (_ & _ & _ & _ & c5). destruct (c5 u x hx) as (r & t & k1 & k2 & k3 & k4 & k5 & k6).
      rewrite k2. destruct (in_dec Nat.eq_dec t ps) as [z|]; [|reflexivity]. destruct hu.
      eapply reach_step; [apply a5; left; exact z|exact k4|exact k6].
  Qed.
End Part.
