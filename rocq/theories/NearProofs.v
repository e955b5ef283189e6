(** * Proofs about the lists of faces *)
From Coq Require Import List Arith Bool Lia.
From Verif Require Import Common NearModel NearSpec.
Import ListNotations.

Lemma put_same m k v : put m k v k = v.
Proof. unfold put. now rewrite Nat.eqb_refl. Qed.
Lemma put_other m k v x : x <> k -> put m k v x = m x.
Proof. intros h. unfold put. destruct (Nat.eqb_spec x k); [contradiction|reflexivity]. Qed.

(** The links of [l], and what follows its end. *)
Fixpoint linked (nx : nat -> option nat) (x : option nat) (l : list nat) (e : option nat) : Prop :=
  match l with [] => x = e | y :: l' => x = Some y /\ linked nx (nx y) l' e end.
Lemma linked_ext nx nx' l e : forall x, (forall y, In y l -> nx' y = nx y) -> linked nx x l e -> linked nx' x l e.
Proof.
  induction l as [|y l ih]; intros x h; cbn [linked]; [trivial|]. intros (h1 & h2). split; [exact h1|].
  rewrite h by now left. apply ih; [intros z hz; apply h; now right|exact h2].
Qed.
Lemma linked_app nx l1 l2 e : forall x, linked nx x (l1 ++ l2) e <-> exists m, linked nx x l1 m /\ linked nx m l2 e.
Proof.
  induction l1 as [|y l1 ih]; intros x; cbn [app linked].
  - split; [eauto|]. intros (m & -> & h). exact h.
  - rewrite ih. split; [intros (h1 & m & h2 & h3); eauto|intros (m & (h1 & h2) & h3); eauto].
Qed.
Lemma linked_follow s l : forall x n, linked (next_f s) x l None -> length l <= n -> follow n s x = l.
Proof.
  induction l as [|y l ih]; intros x n h hn; cbn [linked] in h.
  - subst x. destruct n; reflexivity.
  - destruct h as (-> & h). cbn [length] in hn. destruct n as [|n]; [lia|]. cbn [follow]. f_equal. apply ih; [exact h|lia].
Qed.
Lemma last_of_app l x : last_of (l ++ [x]) = Some x.
Proof. unfold last_of. rewrite rev_app_distr. reflexivity. Qed.
Lemma last_of_app2 l m : last_of (l ++ m) = match last_of m with Some x => Some x | None => last_of l end.
Proof. unfold last_of. rewrite rev_app_distr. destruct (rev m); reflexivity. Qed.
Lemma last_of_some l x : last_of l = Some x -> exists m, l = m ++ [x].
Proof.
  unfold last_of. intros h. destruct (rev l) as [|y r] eqn:e; [discriminate h|]. injection h as ->.
  exists (rev r). rewrite <- (rev_involutive l), e. reflexivity.
Qed.
Lemma last_of_none l : last_of l = None -> l = [].
Proof. unfold last_of. destruct (rev l) eqn:e; [|discriminate]. intros _. rewrite <- (rev_involutive l), e. reflexivity. Qed.

(** Every face that has been used is in one list, and the others are not linked. *)
Definition ninv (s : near) (f : faces) : Prop :=
  (forall v, linked (next_f s) (first_f s v) (f v) None) /\
  (forall v, last_f s v = last_of (f v)) /\
  (forall v x, In x (f v) -> nearby s x = Some v) /\
  (forall v, NoDup (f v)) /\
  (forall x, (forall v, ~ In x (f v)) -> next_f s x = None).
Lemma ninv_one s f v w x : ninv s f -> In x (f v) -> In x (f w) -> v = w.
Proof. intros (_ & _ & h & _) h1 h2. apply h in h1, h2. congruence. Qed.
Lemma ninv_new : ninv near_new (fun _ => []).
Proof. repeat (split; [reflexivity|]). split; [intros v x []|]. split; [constructor|reflexivity]. Qed.
Lemma ninv_shows s f : ninv s f -> shows s f.
Proof.
  intros (h1 & h2 & h3 & _) v. split; [intros n hn; now apply linked_follow|]. split; [apply h2|apply h3].
Qed.
Lemma nodup_app (l m : list nat) : NoDup l -> NoDup m -> (forall x, In x l -> In x m -> False) -> NoDup (l ++ m).
Proof.
  induction l as [|x l ih]; intros h1 h2 h3; [exact h2|]. apply NoDup_cons_iff in h1. destruct h1 as (a & b). cbn [app].
  constructor; [|apply ih; [exact b|exact h2|intros y y1 y2; apply (h3 y); [now right|exact y2]]].
  rewrite in_app_iff. intros [z|z]; [exact (a z)|]. apply (h3 x); [now left|exact z].
Qed.
(** Linking the end of [l ++ [z]] elsewhere. *)
Lemma linked_put nx l z b : forall x e, NoDup (l ++ [z]) -> linked nx x (l ++ [z]) e -> linked (put nx z b) x (l ++ [z]) b.
Proof.
  intros x e nd h. apply linked_app in h. destruct h as (m & h1 & h2 & _). apply linked_app. exists m. split.
  - eapply linked_ext; [|exact h1]. intros y hy. apply put_other. intros ->. apply NoDup_remove_2 in nd. apply nd.
    now rewrite app_nil_r.
  - split; [exact h2|]. cbn [linked]. apply put_same.
Qed.

Lemma init_ok s f x a : ninv s f -> (forall v, ~ In x (f v)) -> ninv (face_init s x a) (does (NInit x a) f).
Proof.
  intros N hx. pose proof N as (h1 & h2 & h3 & h4 & h5). cbn [does].
  assert (NB : forall v y, In y (if v =? a then f a ++ [x] else f v) -> put (nearby s) x (Some a) y = Some v).
  { intros v y. destruct (Nat.eqb_spec v a) as [->|nv]; intros hy.
    - apply in_app_iff in hy. destruct hy as [hy|[<-|[]]]; [|apply put_same].
      rewrite put_other; [now apply h3|intros ->; exact (hx a hy)].
    - rewrite put_other; [now apply h3|intros ->; exact (hx v hy)]. }
  assert (ND : forall v, NoDup (if v =? a then f a ++ [x] else f v)).
  { intros v. destruct (v =? a); [|apply h4]. apply nodup_app; [apply h4|repeat constructor; intros []|].
    intros y y1 [<-|[]]. exact (hx a y1). }
  assert (FR : forall y, (forall v, ~ In y (if v =? a then f a ++ [x] else f v)) -> y <> x /\ forall v, ~ In y (f v)).
  { intros y hy. split.
    - intros ->. apply (hy a). rewrite Nat.eqb_refl. apply in_or_app. right. now left.
    - intros v z. apply (hy v). destruct (Nat.eqb_spec v a) as [->|]; [|exact z]. apply in_or_app. now left. }
  unfold face_init. destruct (last_f s a) as [l|] eqn:e.
  - rewrite h2 in e. destruct (last_of_some _ _ e) as (m & hm).
    assert (hl : In l (f a)) by (rewrite hm; apply in_or_app; right; now left).
    split; [|split; [|split; [exact NB|split; [exact ND|]]]]; cbn [first_f last_f next_f nearby].
    + intros v. destruct (Nat.eqb_spec v a) as [->|nv].
      * apply linked_app. exists (Some x). split.
        -- pose proof (h1 a) as L. pose proof (h4 a) as nd. rewrite hm in L, nd |- *. eapply linked_put; [exact nd|exact L].
        -- cbn [linked]. split; [reflexivity|]. rewrite put_other by (intros ->; exact (hx a hl)). apply h5, hx.
      * eapply linked_ext; [|apply h1]. intros y hy. apply put_other. intros ->. apply nv. exact (ninv_one _ _ _ _ _ N hy hl).
    + intros v. destruct (Nat.eqb_spec v a) as [->|nv]; [rewrite put_same, last_of_app; reflexivity|]. rewrite put_other by exact nv. apply h2.
    + intros y hy. destruct (FR y hy) as (y1 & y2). rewrite put_other by (intros ->; exact (y2 a hl)). now apply h5.
  - rewrite h2 in e. apply last_of_none in e.
    split; [|split; [|split; [exact NB|split; [exact ND|]]]]; cbn [first_f last_f next_f nearby].
    + intros v. destruct (Nat.eqb_spec v a) as [->|nv].
      * rewrite e, put_same. cbn [app linked]. split; [reflexivity|]. apply h5, hx.
      * rewrite put_other by exact nv. apply h1.
    + intros v. destruct (Nat.eqb_spec v a) as [->|nv]; [rewrite put_same, last_of_app; reflexivity|]. rewrite put_other by exact nv. apply h2.
    + intros y hy. apply h5. now apply FR.
Qed.

Lemma retarget_ok src this l : forall fuel s x, linked (next_f s) x l None -> NoDup l -> (forall y, In y l -> nearby s y = Some src) ->
  length l <= fuel ->
  exists s', retarget fuel s x src this = Ok s' /\ first_f s' = first_f s /\ last_f s' = last_f s /\ next_f s' = next_f s /\
    (forall y, In y l -> nearby s' y = Some this) /\ (forall y, ~ In y l -> nearby s' y = nearby s y).
Proof.
  induction l as [|y l ih]; intros fuel s x h nd hn hl; cbn [linked] in h.
  - subst x. exists s. split; [destruct fuel; reflexivity|]. repeat (split; [reflexivity|]). split; [intros y []|reflexivity].
  - destruct h as (-> & h). cbn [length] in hl. destruct fuel as [|fuel]; [lia|]. cbn [retarget].
    rewrite hn by now left. rewrite Nat.eqb_refl. apply NoDup_cons_iff in nd. destruct nd as (n1 & n2). cbn [next_f].
    destruct (ih fuel (Near (first_f s) (last_f s) (next_f s) (put (nearby s) y (Some this))) (next_f s y) h n2) as (s' & e & a1 & a2 & a3 & a4 & a5).
    + intros z hz. cbn [nearby]. rewrite put_other by (intros ->; exact (n1 hz)). apply hn. now right.
    + lia.
    + exists s'. split; [exact e|]. split; [exact a1|]. split; [exact a2|]. split; [exact a3|]. split.
      * intros z [<-|hz]; [|now apply a4]. rewrite a5 by exact n1. apply put_same.
      * intros z hz. rewrite a5 by (intros q; apply hz; now right). apply put_other. intros ->. apply hz. now left.
Qed.

Lemma receive_ok fuel s f this src : ninv s f -> this <> src -> length (f src) <= fuel ->
  exists s', receive fuel s this src = Ok s' /\ ninv s' (does (NReceive this src) f).
Proof.
  intros N ne hf. pose proof N as (h1 & h2 & h3 & h4 & h5). unfold receive.
  set (s1 := match last_f s this with
            | Some l => Near (first_f s) (last_f s) (put (next_f s) l (first_f s src)) (nearby s)
            | None => Near (put (first_f s) this (first_f s src)) (last_f s) (next_f s) (nearby s)
            end).
  assert (A : linked (next_f s1) (first_f s1 this) (f this ++ f src) None /\
              (forall v, v <> this -> linked (next_f s1) (first_f s1 v) (f v) None) /\
              last_f s1 = last_f s /\ nearby s1 = nearby s /\
              (forall x, (forall v, ~ In x (f v)) -> next_f s1 x = None)).
  { unfold s1. destruct (last_f s this) as [l|] eqn:e; rewrite h2 in e; cbn [first_f last_f next_f nearby].
    - destruct (last_of_some _ _ e) as (m & hm). assert (hl : In l (f this)) by (rewrite hm; apply in_or_app; right; now left).
      assert (O : forall v, v <> this -> linked (put (next_f s) l (first_f s src)) (first_f s v) (f v) None).
      { intros v nv. eapply linked_ext; [|apply h1]. intros y hy. apply put_other. intros ->. apply nv. exact (ninv_one _ _ _ _ _ N hy hl). }
      split; [|split; [exact O|split; [reflexivity|split; [reflexivity|]]]].
      + apply linked_app. exists (first_f s src). split; [|apply O; congruence].
        pose proof (h1 this) as L. pose proof (h4 this) as nd. rewrite hm in L, nd |- *. eapply linked_put; [exact nd|exact L].
      + intros x hx. rewrite put_other by (intros ->; exact (hx _ hl)). now apply h5.
    - apply last_of_none in e. rewrite e, put_same. cbn [app]. split; [apply h1|]. split; [|auto].
      intros v nv. rewrite put_other by exact nv. apply h1. }
  destruct A as (A1 & A2 & A3 & A4 & A5).
  set (s2 := match last_f s1 src with
            | Some l => Near (first_f s1) (put (last_f s1) this (Some l)) (next_f s1) (nearby s1)
            | None => s1
            end).
  assert (B : first_f s2 = first_f s1 /\ next_f s2 = next_f s1 /\ nearby s2 = nearby s1 /\
              last_f s2 this = last_of (f this ++ f src) /\ (forall v, v <> this -> last_f s2 v = last_of (f v))).
  { assert (Q : last_f s1 src = last_of (f src)) by (rewrite A3; apply h2). unfold s2. rewrite last_of_app2, Q. destruct (last_of (f src)) as [l|] eqn:e; cbn [first_f last_f next_f nearby].
    - repeat (split; [reflexivity|]). rewrite put_same. split; [reflexivity|]. intros v nv. rewrite put_other by exact nv. rewrite A3. apply h2.
    - repeat (split; [reflexivity|]). rewrite A3. split; [apply h2|]. intros v _. apply h2. }
  destruct B as (B1 & B2 & B3 & B4 & B5).
  destruct (retarget_ok src this (f src) fuel s2 (first_f s2 src)) as (s3 & e & a1 & a2 & a3 & a4 & a5).
  - rewrite B1, B2. apply A2. congruence.
  - apply h4.
  - intros y hy. rewrite B3, A4. now apply h3.
  - exact hf.
  - rewrite e. cbn [obind]. eexists. split; [reflexivity|]. cbn [does].
    split; [|split; [|split; [|split]]]; cbn [first_f last_f next_f nearby]; rewrite ?a1, ?a2, ?a3, ?B1, ?B2.
    + intros v. destruct (Nat.eqb_spec v this) as [->|nv]; [rewrite put_other by exact ne; exact A1|].
      destruct (Nat.eqb_spec v src) as [->|nv2]; [rewrite put_same; reflexivity|]. rewrite put_other by exact nv2. now apply A2.
    + intros v. destruct (Nat.eqb_spec v this) as [->|nv]; [rewrite put_other by exact ne; exact B4|].
      destruct (Nat.eqb_spec v src) as [->|nv2]; [rewrite put_same; reflexivity|]. rewrite put_other by exact nv2. now apply B5.
    + intros v x. destruct (Nat.eqb_spec v this) as [->|nv].
      * rewrite in_app_iff. intros [hx|hx]; [|now apply a4]. rewrite a5, B3, A4; [now apply h3|].
        intros z. apply ne. exact (ninv_one _ _ _ _ _ N hx z).
      * destruct (Nat.eqb_spec v src) as [->|nv2]; [intros []|]. intros hx. rewrite a5, B3, A4; [now apply h3|].
        intros z. apply nv2. exact (ninv_one _ _ _ _ _ N hx z).
    + intros v. destruct (v =? this); [|destruct (v =? src); [constructor|apply h4]].
      apply nodup_app; [apply h4|apply h4|]. intros x x1 x2. apply ne. exact (ninv_one _ _ _ _ _ N x1 x2).
    + intros x hx. apply A5. intros v z. destruct (Nat.eq_dec v this) as [->|nv].
      * apply (hx this). rewrite Nat.eqb_refl. apply in_or_app. now left.
      * destruct (Nat.eq_dec v src) as [->|nv2].
        -- apply (hx this). rewrite Nat.eqb_refl. apply in_or_app. now right.
        -- apply (hx v). destruct (Nat.eqb_spec v this); [contradiction|]. destruct (Nat.eqb_spec v src); [contradiction|exact z].
Qed.

(** Lists never hold more faces than have been made. *)
Lemma run_ok os : forall fuel s f u, ninv s f -> all_allowed os f -> (forall v x, In x (f v) -> In x u) ->
  length u + length os <= fuel -> exists s', nrun fuel s os = Ok s' /\ ninv s' (all_done os f).
Proof.
  induction os as [|o os ih]; intros fuel s f u N h hu hl; cbn [nrun].
  - exists s. split; [reflexivity|exact N].
  - destruct h as (h & hr). cbn [length] in hl. destruct o as [x a|this src]; cbn [allowed] in h; cbn [nstep].
    + cbn [obind]. apply (ih fuel _ _ (x :: u) (init_ok s f x a N h) hr); [|cbn [length]; lia].
      intros v y. cbn [does]. destruct (v =? a); [|intros hy; right; exact (hu v y hy)].
      rewrite in_app_iff. intros [hy|[<-|[]]]; [right; exact (hu a y hy)|now left].
    + destruct (receive_ok fuel s f this src N h) as (s1 & e & N1).
      { pose proof (NoDup_incl_length (proj1 (proj2 (proj2 (proj2 N))) src) (hu src)). lia. }
      rewrite e. cbn [obind]. apply (ih fuel _ _ u N1 hr); [|lia].
      intros v y. cbn [does]. destruct (v =? this); [|destruct (v =? src); [intros []|apply hu]].
      rewrite in_app_iff. intros [hy|hy]; exact (hu _ _ hy).
Qed.

(** Two faces of one vertex that takes over its own: the links become a circle. *)
Lemma cycle_never fuel : forall s x y, next_f s x = Some y -> next_f s y = Some x -> nearby s x = Some 0 -> nearby s y = Some 0 ->
  retarget fuel s (Some x) 0 0 = NoFuel.
Proof.
  induction fuel as [|fuel ih]; intros s x y h1 h2 h3 h4; [reflexivity|]. cbn [retarget]. rewrite h3. cbn [Nat.eqb].
  cbn [next_f]. rewrite h1. apply (ih _ y x); cbn [next_f nearby]; [exact h2|exact h1| |].
  - unfold put. destruct (y =? x); [reflexivity|exact h4].
  - apply put_same.
Qed.

Lemma linked_sub s l : forall x n, linked (next_f s) x l None -> incl (follow n s x) l.
Proof.
  induction l as [|y l ih]; intros x n h; cbn [linked] in h.
  - subst x. destruct n; intros z [].
  - destruct h as (-> & h). destruct n as [|n]; [intros z []|]. cbn [follow]. intros z [<-|hz]; [now left|]. right.
    exact (ih _ n h z hz).
Qed.
Lemma does_keeps o f v x : In x (f v) -> exists w, In x (does o f w).
Proof.
  intros h. destruct o as [y a|this src]; cbn [does].
  - exists v. destruct (Nat.eqb_spec v a) as [->|]; [apply in_or_app; now left|exact h].
  - destruct (Nat.eq_dec v src) as [->|n].
    + exists this. rewrite Nat.eqb_refl. apply in_or_app. now right.
    + exists v. destruct (Nat.eqb_spec v this) as [->|]; [apply in_or_app; now left|].
      destruct (Nat.eqb_spec v src); [contradiction|exact h].
Qed.
Lemma done_keeps os : forall f v x, In x (f v) -> exists w, In x (all_done os f w).
Proof.
  induction os as [|o os ih]; intros f v x h; [eauto|]. destruct (does_keeps o f v x h) as (w & hw). exact (ih _ w x hw).
Qed.
Lemma done_makes os : forall f x a, In (NInit x a) os -> exists w, In x (all_done os f w).
Proof.
  induction os as [|o os ih]; intros f x a h; [destruct h|]. destruct h as [->|h].
  - apply (done_keeps os (does (NInit x a) f) a). cbn [does]. rewrite Nat.eqb_refl. apply in_or_app. right. now left.
  - exact (ih (does o f) x a h).
Qed.
