(** * Proofs about the pools *)
From Coq Require Import List Arith Bool Lia Permutation.
From Verif Require Import Common FreeModel FreeSpec.
Import ListNotations.

Lemma oeqb_spec a b : reflect (a = b) (oeqb a b).
Proof.
  unfold oeqb. destruct a as [a1 a2], b as [b1 b2]. cbn [fst snd].
  destruct (Nat.eqb_spec a1 b1); destruct (Nat.eqb_spec a2 b2); constructor; congruence.
Qed.
Lemma link_same l o v : link l o v o = v.
Proof. unfold link. destruct (oeqb_spec o o); congruence. Qed.
Lemma link_other l o v p : p <> o -> link l o v p = l p.
Proof. intros h. unfold link. destruct (oeqb_spec p o); congruence. Qed.

(** The free objects in the order in which they are given out. *)
Fixpoint linked (l : links) (f : option obj) (fl : list obj) : Prop :=
  match fl with
  | [] => f = None
  | o :: r => f = Some o /\ exists n, l o = Some n /\ linked l n r
  end.
Lemma linked_ext l l' fl : (forall o, In o fl -> l' o = l o) -> forall f, linked l f fl -> linked l' f fl.
Proof.
  induction fl as [|o fl ih]; intros h f H; cbn [linked] in *; [exact H|].
  destruct H as (h1 & n & h2 & h3). split; [exact h1|]. exists n. rewrite h by now left. split; [exact h2|].
  apply ih; [intros q hq; apply h; now right|exact h3].
Qed.
Lemma init_other a size n : forall l i o, fst o <> a \/ snd o < i -> init_loop l a size i n o = l o.
Proof.
  induction n as [|n ih]; intros l i o h; cbn [init_loop]; [reflexivity|].
  rewrite ih by lia. apply link_other. intros ->. cbn [fst snd] in h. lia.
Qed.
Lemma init_linked a size n : forall l i, i + n = size -> 0 < n ->
  linked (init_loop l a size i n) (Some (a, i)) (map (pair a) (seq i n)).
Proof.
  induction n as [|n ih]; intros l i h hn; [lia|]. cbn [init_loop seq map linked]. split; [reflexivity|].
  eexists. rewrite init_other by (right; cbn; lia). rewrite link_same. split; [reflexivity|].
  destruct n as [|n].
  - cbn [seq map linked]. destruct (Nat.ltb_spec (i + 1) size); [lia|reflexivity].
  - destruct (Nat.ltb_spec (i + 1) size); [|lia]. rewrite Nat.add_1_r. apply ih; lia.
Qed.

(** Which arrays have been linked since the pool was reset. *)
Definition ready (p : pool) (a : nat) : Prop := match next_array p with None => True | Some k => k < a end.
Definition finv (p : pool) (held : list obj) : Prop :=
  (forall i a, nth_error (parrays p) i = Some a -> pnext a = (match i with 0 => None | S j => Some j end) /\ 0 < psize a) /\
  arrays p = (match length (parrays p) with 0 => None | S j => Some j end) /\
  (forall k, next_array p = Some k -> k < length (parrays p)) /\
  0 < array_size p /\
  exists fl, linked (nexts p) (free_objects p) fl /\ NoDup (fl ++ held) /\
             forall o, In o (fl ++ held) <-> place_of p o /\ ready p (fst o).

Lemma finv_new : finv pool_new [].
Proof.
  split; [intros i a h; destruct i; discriminate h|]. split; [reflexivity|]. split; [intros k h; discriminate h|].
  split; [cbn; lia|]. exists []. split; [reflexivity|]. split; [constructor|]. intros o. cbn [app In].
  split; [intros []|]. intros [(a & h & _) _]. cbn in h. destruct (fst o); discriminate h.
Qed.

Lemma take_ok p held o fl : finv p held -> linked (nexts p) (Some o) (o :: fl) ->
  free_objects p = Some o -> exists p', take p o = Ok (p', o) /\ finv p' (o :: held) /\ ~ In o held /\
    parrays p' = parrays p /\ (forall x, x <> o -> nexts p' x = nexts p x).
Proof.
  intros (h1 & h2 & h3 & h4 & gl & k1 & k2 & k3) L e. rewrite e in k1. destruct gl as [|o' gl]; [discriminate k1|].
  destruct k1 as (q & n & k1 & k1'). injection q as <-. cbn [app] in k2, k3.
  destruct (proj1 (k3 o) (or_introl eq_refl)) as ((a & ha & hs) & hr). unfold take. rewrite ha.
  destruct (Nat.ltb_spec (snd o) (psize a)); [|lia]. rewrite k1. eexists. split; [reflexivity|].
  pose proof k2 as k2'. apply NoDup_cons_iff in k2'. destruct k2' as (nin & nd). split.
  - split; [exact h1|]. split; [exact h2|]. split; [exact h3|]. split; [exact h4|]. exists gl. cbn [nexts free_objects].
    split; [|split].
    + eapply linked_ext; [|exact k1']. intros x hx. apply link_other. intros ->. apply nin. apply in_or_app. now left.
    + eapply Permutation_NoDup; [apply Permutation_middle|exact k2].
    + intros x. rewrite <- (k3 x). clear. rewrite in_app_iff. cbn [In]. rewrite in_app_iff. tauto.
  - split; [intros hi; apply nin; apply in_or_app; now right|]. split; [reflexivity|].
    intros x hx. now apply link_other.
Qed.

(** Linking an array when no object is free. *)
Lemma init_ok arrs ar nx sz l held a k :
  (forall i b, nth_error arrs i = Some b -> pnext b = (match i with 0 => None | S j => Some j end) /\ 0 < psize b) ->
  ar = (match length arrs with 0 => None | S j => Some j end) ->
  (forall j, nx = Some j -> j < length arrs) -> 0 < sz -> nth_error arrs a = Some k ->
  NoDup held -> (forall o, In o held -> fst o <> a) ->
  let q := Pool arrs ar nx None sz l in
  (forall o, place_of q o /\ ready q (fst o) <-> place_of q o /\ fst o = a \/ In o held) ->
  exists p' o, obind (init_array q a) (fun '(p2, o) => take p2 o) = Ok (p', o) /\ finv p' (o :: held) /\ ~ In o held /\
    parrays p' = arrs /\ (forall x, In x held -> nexts p' x = l x).
Proof.
  intros h1 h2 h3 h4 hk nd ne q hq. destruct (h1 a k hk) as (e1 & e2). unfold init_array. cbn [q parrays]. rewrite hk.
  cbn [obind arrays next_array free_objects array_size nexts].
  set (p3 := Pool arrs ar nx (Some (a, 0)) sz (init_loop l a (psize k) 0 (psize k))).
  set (fl := map (pair a) (seq 0 (psize k))).
  assert (L : linked (nexts p3) (free_objects p3) fl) by (apply init_linked; lia).
  assert (M : forall o, In o fl <-> fst o = a /\ snd o < psize k).
  { intros [u v]. unfold fl. rewrite in_map_iff. cbn [fst snd]. split.
    - intros (z & hz & hi). injection hz as <- <-. apply in_seq in hi. lia.
    - intros (-> & hv). exists v. split; [reflexivity|]. apply in_seq. lia. }
  assert (H : finv p3 held).
  { split; [exact h1|]. split; [exact h2|]. split; [exact h3|]. split; [exact h4|]. exists fl. split; [exact L|]. split.
    - assert (ND : NoDup fl) by (apply FinFun.Injective_map_NoDup; [intros x y z; congruence|apply seq_NoDup]).
      assert (D : forall o, In o fl -> ~ In o held).
      { intros o ho hh. apply M in ho. apply ne in hh. tauto. }
      clear - ND D nd. induction fl as [|x l ih]; cbn [app]; [exact nd|]. apply NoDup_cons_iff in ND.
      destruct ND as (n1 & n2). constructor; [|apply ih; [exact n2|intros o ho; apply D; now right]].
      rewrite in_app_iff. intros [z|z]; [exact (n1 z)|exact (D x (or_introl eq_refl) z)].
    - intros o. change (place_of p3 o /\ ready p3 (fst o)) with (place_of q o /\ ready q (fst o)).
      rewrite hq, in_app_iff, M. split; (intros [(z1 & z2)|z]; [left|now right]).
      + split; [|exact z1]. exists k. cbn [q parrays]. rewrite z1. auto.
      + destruct z1 as (b & hb & hs). cbn [q parrays] in hb. rewrite z2, hk in hb. injection hb as <-. auto. }
  destruct (psize k) as [|z] eqn:ez; [lia|].
  destruct (take_ok p3 held (a, 0) (map (pair a) (seq 1 z)) H L eq_refl) as (p' & t1 & t2 & t3 & t4 & t5).
  exists p', (a, 0). split; [exact t1|]. split; [exact t2|]. split; [exact t3|]. split; [exact t4|].
  intros x hx. rewrite t5 by (intros ->; exact (t3 hx)). cbn [p3 nexts]. apply init_other. left. now apply ne.
Qed.

Lemma new_ok p held : finv p held ->
  exists p' o, new_object p = Ok (p', o) /\ finv p' (o :: held) /\ ~ In o held /\
    (forall x, In x held -> nexts p' x = nexts p x) /\
    (parrays p' = parrays p \/
     parrays p' = parrays p ++ [PA (array_size p) (arrays p)] /\ forall x, place_of p x -> In x held).
Proof.
  intros H. pose proof H as (h1 & h2 & h3 & h4 & fl & k1 & k2 & k3). unfold new_object.
  destruct (free_objects p) as [o|] eqn:e.
  - destruct fl as [|o' fl]; [discriminate k1|]. pose proof k1 as (q & _). injection q as <-.
    destruct (take_ok p held o fl H k1 e) as (p' & e1 & H1 & n1 & l1 & l2).
    exists p', o. split; [exact e1|]. split; [exact H1|]. split; [exact n1|]. split; [|now left].
    intros x hx. apply l2. intros ->. exact (n1 hx).
  - destruct fl as [|o fl]; [|destruct k1; discriminate]. cbn [app] in k2, k3. unfold ready in k3.
    destruct (next_array p) as [a|] eqn:na.
    + destruct (nth_error (parrays p) a) as [k|] eqn:hk; [|apply nth_error_None in hk; pose proof (h3 a eq_refl); lia].
      cbn [obind]. destruct (h1 a k hk) as (e1 & e2).
      assert (LT : a < length (parrays p)) by now apply h3.
      destruct (init_ok (parrays p) (arrays p) (pnext k) (array_size p) (nexts p) held a k) as (p' & o & g1 & g2 & g3 & g4 & g5);
        try assumption.
      * intros j hj. rewrite e1 in hj. destruct a as [|a]; [discriminate hj|]. injection hj as <-. lia.
      * intros o ho. apply k3 in ho. lia.
      * intros o. rewrite k3, e1. unfold ready. cbn [next_array].
        change (place_of (Pool (parrays p) (arrays p) (match a with 0 => None | S j => Some j end) None (array_size p) (nexts p)) o)
          with (place_of p o). destruct a as [|a].
        -- split; [|tauto]. intros (z & _). destruct (Nat.eq_dec (fst o) 0); [left; tauto|right; split; [exact z|lia]].
        -- split.
           ++ intros (z & z'). destruct (Nat.eq_dec (fst o) (S a)); [left; tauto|right; split; [exact z|lia]].
           ++ intros [(z & z')|(z & z')]; (split; [exact z|lia]).
      * exists p', o. split; [exact g1|]. split; [exact g2|]. split; [exact g3|]. split; [exact g5|]. now left.
    + cbn [obind]. set (n := length (parrays p)). set (k := PA (array_size p) (arrays p)).
      assert (hk : nth_error (parrays p ++ [k]) n = Some k).
      { unfold n. rewrite nth_error_app2, Nat.sub_diag by lia. reflexivity. }
      assert (A : forall i b, nth_error (parrays p ++ [k]) i = Some b -> nth_error (parrays p) i = Some b \/ i = n /\ b = k).
      { intros i b hb. destruct (Nat.ltb_spec i n) as [c|c].
        - left. now rewrite nth_error_app1 in hb.
        - right. assert (i < length (parrays p ++ [k])) by (apply nth_error_Some; congruence).
          rewrite app_length in H0. cbn [length] in H0. fold n in H0. assert (i = n) as -> by lia. split; [reflexivity|congruence]. }
      assert (B : forall o, In o held -> fst o < n).
      { intros o ho. apply k3 in ho. destruct ho as ((b & hb & _) & _). apply nth_error_Some. congruence. }
      destruct (init_ok (parrays p ++ [k]) (Some n) None (array_size p) (nexts p) held n k) as (p' & o & g1 & g2 & g3 & g4 & g5);
        try assumption.
      * intros i b hb. destruct (A i b hb) as [z|(-> & ->)]; [now apply h1|]. cbn [k pnext psize]. now split.
      * rewrite app_length. cbn [length]. rewrite Nat.add_1_r. reflexivity.
      * intros j hj. discriminate hj.
      * intros o ho. apply B in ho. lia.
      * intros o. unfold ready. cbn [next_array]. rewrite k3. unfold place_of. cbn [parrays]. split.
        -- intros ((b & hb & hs) & _). destruct (A _ _ hb) as [z|(z & z')]; [right|left]; eauto.
        -- intros [(z & _)|((b & hb & hs) & _)]; (split; [|exact I]); [exact z|].
           exists b. split; [|exact hs]. rewrite nth_error_app1; [exact hb|]. apply nth_error_Some. congruence.
      * exists p', o. split; [exact g1|]. split; [exact g2|]. split; [exact g3|]. split; [exact g5|]. right. split; [exact g4|].
        intros x hx. apply k3. now split.
Qed.

Lemma step_ok p held f : finv p held -> fallowed f held ->
  exists p' r held', fstep p f = Ok (p', r) /\ fdoes f held r held' /\ finv p' held' /\
    (forall o, place_of p o -> place_of p' o) /\
    (forall o, In o held -> leaves f o -> In o held' /\ nexts p' o = nexts p o).
Proof.
  intros H hf. destruct f as [|o| |n|o v]; cbn [fallowed] in hf; cbn [fstep fdoes].
  - destruct (new_ok p held H) as (p' & o & e & H1 & n1 & K & L). rewrite e. cbn [obind]. eexists _, _, _. split; [reflexivity|].
    split; [exists o; auto|]. split; [exact H1|]. split; [|intros x hx _; split; [now right|now apply K]]. intros x (a & ha & hs). exists a. split; [|exact hs].
    destruct L as [->|(-> & _)]; [exact ha|]. rewrite nth_error_app1; [exact ha|]. apply nth_error_Some. congruence.
  - destruct H as (h1 & h2 & h3 & h4 & fl & k1 & k2 & k3).
    destruct (proj1 (k3 o) (in_or_app _ _ _ (or_intror hf))) as ((a & ha & hs) & hr).
    unfold free_object. rewrite ha. destruct (Nat.ltb_spec (snd o) (psize a)); [|lia]. cbn [obind].
    destruct (in_split _ _ hf) as (u & w & ->). eexists _, None, (u ++ w). split; [reflexivity|].
    split; [split; [reflexivity|]; now exists u, w|]. split; [|split; [intros x hx; exact hx|intros x hx z; cbn [leaves] in z; split;
      [apply in_app_iff in hx; cbn [In] in hx; apply in_app_iff; intuition congruence|cbn [nexts]; apply link_other; congruence]]].
    split; [exact h1|]. split; [exact h2|]. split; [exact h3|]. split; [exact h4|]. exists (o :: fl).
    assert (P : Permutation (fl ++ u ++ o :: w) ((o :: fl) ++ u ++ w)).
    { cbn [app]. rewrite !app_assoc. symmetry. apply Permutation_middle. }
    assert (ND : NoDup ((o :: fl) ++ u ++ w)) by (eapply Permutation_NoDup; [exact P|exact k2]).
    split; [|split; [exact ND|]].
    + cbn [linked free_objects nexts]. split; [reflexivity|]. exists (free_objects p). rewrite link_same. split; [reflexivity|].
      eapply linked_ext; [|exact k1]. intros x hx. apply link_other. intros ->. cbn [app] in ND.
      apply NoDup_cons_iff in ND. apply (proj1 ND). apply in_or_app. now left.
    + intros x. rewrite <- (Permutation_in' eq_refl P), k3. reflexivity.
  - destruct H as (h1 & h2 & h3 & h4 & _). eexists _, None, []. split; [reflexivity|]. split; [auto|]. split; [|split; [intros x hx; exact hx|intros x hx []]].
    split; [exact h1|]. split; [exact h2|]. cbn [reset next_array parrays array_size]. split; [|split; [exact h4|]].
    + intros k hk. rewrite h2 in hk. destruct (length (parrays p)); [discriminate hk|]. injection hk as <-. lia.
    + exists []. split; [reflexivity|]. split; [constructor|]. intros x. split; [intros []|]. intros ((a & ha & hs) & hr).
      cbn [reset parrays] in ha. unfold ready in hr. cbn [reset next_array] in hr. rewrite h2 in hr.
      assert (fst x < length (parrays p)) by (apply nth_error_Some; congruence).
      destruct (length (parrays p)); [lia|]. exfalso. lia.
  - destruct H as (h1 & h2 & h3 & h4 & rest). eexists _, None, held. split; [reflexivity|]. split; [auto|]. split; [|split; [intros x hx; exact hx|auto]].
    split; [exact h1|]. split; [exact h2|]. split; [exact h3|]. split; [exact hf|]. exact rest.
  - destruct H as (h1 & h2 & h3 & h4 & fl & k1 & k2 & k3).
    destruct (proj1 (k3 o) (in_or_app _ _ _ (or_intror hf))) as ((a & ha & hs) & hr).
    unfold write_next. rewrite ha. destruct (Nat.ltb_spec (snd o) (psize a)); [|lia]. cbn [obind].
    eexists _, None, held. split; [reflexivity|]. split; [auto|]. split; [|split; [intros x hx; exact hx|intros x hx z; cbn [leaves] in z; split; [exact hx|cbn [nexts]; apply link_other; congruence]]].
    split; [exact h1|]. split; [exact h2|]. split; [exact h3|]. split; [exact h4|]. exists fl.
    split; [|split; [exact k2|exact k3]]. cbn [nexts free_objects]. eapply linked_ext; [|exact k1].
    intros x hx. apply link_other. intros ->. destruct (in_split _ _ hx) as (u & w & ->).
    rewrite <- app_assoc in k2. cbn [app] in k2. apply NoDup_remove_2 in k2. apply k2. rewrite !in_app_iff. auto.
Qed.

Lemma run_ok g : forall p held, finv p held -> fall g held ->
  exists p' t held', frun p g = Ok (p', t) /\ fgives t held held' /\ finv p' held' /\
    (forall o, In o held -> Forall (fun x => leaves (fst x) o) t -> nexts p' o = nexts p o) /\
    (forall t1 o v r t2, t = t1 ++ (FWrite o v, r) :: t2 -> Forall (fun x => leaves (fst x) o) t2 -> nexts p' o = Some v).
Proof.
  induction g as [|f k ih]; intros p held H hf; cbn [frun].
  - exists p, [], held. split; [reflexivity|]. split; [reflexivity|]. split; [exact H|]. split; [reflexivity|].
    intros [|] o v r t2 h; discriminate h.
  - destruct hf as (hf & hr). destruct (step_ok p held f H hf) as (p1 & r & m & e & d & H1 & _ & K1).
    destruct (ih r p1 m H1 (hr r m d)) as (p' & t & held' & e' & d' & H2 & K2 & W). rewrite e. cbn [obind]. rewrite e'. cbn [obind].
    exists p', ((f, r) :: t), held'. split; [reflexivity|]. split; [exists m; auto|]. split; [exact H2|]. split.
    + intros o ho hl. apply Forall_cons_iff in hl. destruct hl as (l1 & l2). destruct (K1 o ho l1) as (z1 & z2).
      rewrite (K2 o z1 l2). exact z2.
    + intros [|y t1] o v r' t2 ht hl; cbn [app] in ht.
      * injection ht as -> -> ->. cbn [fallowed] in hf. destruct d as (-> & ->). rewrite (K2 o hf hl).
        cbn [fstep] in e. unfold write_next in e. destruct (nth_error (parrays p) (fst o)) as [a|]; [|discriminate e].
        destruct (snd o <? psize a); [|discriminate e]. cbn [obind] in e. injection e as <-. cbn [nexts]. apply link_same.
      * injection ht as _ ht. eapply W; [exact ht|exact hl].
Qed.
Lemma finv_held p held : finv p held -> NoDup held /\ forall o, In o held -> place_of p o.
Proof.
  intros (_ & _ & _ & _ & fl & _ & k2 & k3). split.
  - clear k3. induction fl as [|x fl ih]; [exact k2|]. apply ih. now apply NoDup_cons_iff in k2.
  - intros o ho. apply k3. apply in_or_app. now right.
Qed.
