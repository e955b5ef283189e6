(** * Proofs about the memory of the array *)
From Coq Require Import List Arith Bool Lia.
From Verif Require Import Common PoolModel PoolSpec.
Import ListNotations.

Lemma upd_length {A} (l : list A) i x : length (upd l i x) = length l.
Proof.
  unfold upd. destruct (Nat.ltb_spec i (length l)); [|reflexivity].
  rewrite app_length, firstn_length; cbn [length]; rewrite skipn_length; lia.
Qed.
Lemma upd_app {A} (a b : list A) x y i : length a = i -> upd (a ++ x :: b) i y = a ++ y :: b.
Proof.
  intros <-. unfold upd. rewrite app_length; cbn [length].
  destruct (Nat.ltb_spec (length a) (length a + S (length b))); [|lia].
  rewrite firstn_app, Nat.sub_diag, firstn_all, firstn_O, app_nil_r. f_equal. f_equal.
  replace (S (length a)) with (length (a ++ [x])) by (rewrite app_length; cbn; lia).
  change (x :: b) with ([x] ++ b). rewrite app_assoc, skipn_app, skipn_all, Nat.sub_diag. reflexivity.
Qed.
Lemma upd_same {A} (l : list A) i x : i < length l -> nth_error (upd l i x) i = Some x.
Proof.
  intros h. destruct (nth_error l i) as [y|] eqn:e; [|apply nth_error_None in e; lia].
  destruct (nth_error_split l i e) as (a & b & -> & q).
  rewrite (upd_app a b y x i q), nth_error_app2 by lia. rewrite <- q, Nat.sub_diag. reflexivity.
Qed.
Lemma upd_other {A} (l : list A) i j x : j <> i -> nth_error (upd l i x) j = nth_error l j.
Proof.
  intros h. destruct (nth_error l i) as [y|] eqn:e.
  - destruct (nth_error_split l i e) as (a & b & -> & q). rewrite (upd_app a b y x i q).
    destruct (Nat.ltb_spec j (length a)).
    + rewrite !nth_error_app1 by lia. reflexivity.
    + rewrite !nth_error_app2 by lia. destruct (j - length a) eqn:z; [lia|reflexivity].
  - apply nth_error_None in e. unfold upd. destruct (Nat.ltb_spec i (length l)); [lia|reflexivity].
Qed.
Lemma nth_lt {A} (l : list A) i x : nth_error l i = Some x -> i < length l.
Proof. intros h. apply nth_error_Some. congruence. Qed.

Section Proofs.
  Context {T : Type}.
  Implicit Types (m : memory T) (a : oarray) (l : list T).

  Definition chg m b f (c : option (list (option T))) m' : Prop :=
    length (blocks m') = length (blocks m) /\ nth_error (blocks m') b = Some (Blk f c) /\
    forall j, j <> b -> nth_error (blocks m') j = nth_error (blocks m) j.

  Lemma chg_trans m b f c m1 f' c' m2 : chg m b f c m1 -> chg m1 b f' c' m2 -> chg m b f' c' m2.
  Proof.
    intros (h1 & h2 & h3) (k1 & k2 & k3). split; [congruence|]. split; [exact k2|].
    intros j hj. rewrite k3, h3; auto.
  Qed.
  Lemma chg_refl m b f c : nth_error (blocks m) b = Some (Blk f c) -> chg m b f c m.
  Proof. intros h. split; [reflexivity|]. split; auto. Qed.

  Lemma store_ok m b f c0 c : nth_error (blocks m) b = Some (Blk f c0) ->
    chg m b f c (store m (Some b) c) /\ made (store m (Some b) c) = made m /\ gone (store m (Some b) c) = gone m.
  Proof.
    intros h. unfold store. rewrite h. cbn [foreign blocks made gone]. split; [|auto].
    split; [apply upd_length|]. split; [apply upd_same; eapply nth_lt; eauto|].
    intros j hj. apply upd_other; auto.
  Qed.
  Lemma deref_ok m b f c : nth_error (blocks m) b = Some (Blk f (Some c)) -> deref m (Some b) = Ok c.
  Proof. intros h. unfold deref. rewrite h. reflexivity. Qed.
  Lemma load_ok m b f pre x post i : nth_error (blocks m) b = Some (Blk f (Some (pre ++ Some x :: post))) ->
    length pre = i -> load m (Some b) i = Ok x.
  Proof.
    intros h <-. unfold load. rewrite (deref_ok _ _ _ _ h). cbn [obind].
    rewrite nth_error_app2, Nat.sub_diag by lia. reflexivity.
  Qed.

  Lemma construct_ok m b f pre x post i v : nth_error (blocks m) b = Some (Blk f (Some (pre ++ x :: post))) ->
    length pre = i -> exists m', construct m (Some b) i v = Ok m' /\ chg m b f (Some (pre ++ Some v :: post)) m' /\
      made m' = S (made m) /\ gone m' = gone m.
  Proof.
    intros h hi. unfold construct. rewrite (deref_ok _ _ _ _ h). cbn [obind].
    destruct (Nat.ltb_spec i (length (pre ++ x :: post))) as [_|g]; [|rewrite app_length in g; cbn [length] in g; lia].
    rewrite (upd_app pre post x (Some v) i hi).
    destruct (store_ok m b f _ (Some (pre ++ Some v :: post)) h) as (q1 & q2 & q3).
    eexists. split; [reflexivity|]. cbn [made gone]. rewrite q2, q3. split; [exact q1|auto].
  Qed.
  Lemma destruct_ok m b f pre x post i : nth_error (blocks m) b = Some (Blk f (Some (pre ++ Some x :: post))) ->
    length pre = i -> exists m', destruct_ m (Some b) i = Ok m' /\ chg m b f (Some (pre ++ None :: post)) m' /\
      made m' = made m /\ gone m' = S (gone m).
  Proof.
    intros h hi. unfold destruct_. rewrite (load_ok _ _ _ _ _ _ _ h hi), (deref_ok _ _ _ _ h). cbn [obind].
    rewrite (upd_app pre post _ None i hi).
    destruct (store_ok m b f _ (Some (pre ++ None :: post)) h) as (q1 & q2 & q3).
    eexists. split; [reflexivity|]. cbn [made gone]. rewrite q2, q3. split; [exact q1|auto].
  Qed.

  Lemma destroy_ok l : forall m b f pre post i,
    nth_error (blocks m) b = Some (Blk f (Some (pre ++ map Some l ++ post))) -> length pre = i ->
    exists m', destroy_loop m (Some b) i (length l) = Ok m' /\
      chg m b f (Some (pre ++ repeat None (length l) ++ post)) m' /\ made m' = made m /\ gone m' = gone m + length l.
  Proof.
    induction l as [|x l ih]; intros m b f pre post i h hi; cbn [length map app repeat destroy_loop] in *.
    - exists m. split; [reflexivity|]. split; [apply chg_refl; exact h|]. lia.
    - destruct (destruct_ok _ _ _ _ _ _ _ h hi) as (m1 & e1 & c1 & n1 & g1). rewrite e1. cbn [obind].
      destruct (ih m1 b f (pre ++ [None]) post (S i)) as (m2 & e2 & c2 & n2 & g2).
      + destruct c1 as (_ & c1 & _). rewrite c1, <- app_assoc. reflexivity.
      + rewrite app_length; cbn; lia.
      + exists m2. split; [exact e2|]. split; [|lia]. rewrite <- app_assoc in c2. eapply chg_trans; eauto.
  Qed.
  Lemma fill_ok v mid : forall m b f pre post i,
    nth_error (blocks m) b = Some (Blk f (Some (pre ++ mid ++ post))) -> length pre = i ->
    exists m', fill_loop m (Some b) i (length mid) v = Ok m' /\
      chg m b f (Some (pre ++ repeat (Some v) (length mid) ++ post)) m' /\ made m' = made m + length mid /\ gone m' = gone m.
  Proof.
    induction mid as [|x l ih]; intros m b f pre post i h hi; cbn [length app repeat fill_loop] in *.
    - exists m. split; [reflexivity|]. split; [apply chg_refl; exact h|]. lia.
    - destruct (construct_ok _ _ _ _ _ _ _ v h hi) as (m1 & e1 & c1 & n1 & g1). rewrite e1. cbn [obind].
      destruct (ih m1 b f (pre ++ [Some v]) post (S i)) as (m2 & e2 & c2 & n2 & g2).
      + destruct c1 as (_ & c1 & _). rewrite c1, <- app_assoc. reflexivity.
      + rewrite app_length; cbn; lia.
      + exists m2. split; [exact e2|]. split; [|lia]. rewrite <- app_assoc in c2. eapply chg_trans; eauto.
  Qed.
  Lemma copy_ok l : forall m s d fs fd pre post dpre mid dpost i, s <> d ->
    nth_error (blocks m) s = Some (Blk fs (Some (pre ++ map Some l ++ post))) -> length pre = i ->
    nth_error (blocks m) d = Some (Blk fd (Some (dpre ++ mid ++ dpost))) -> length dpre = i -> length mid = length l ->
    exists m', copy_loop m (Some s) (Some d) i (length l) = Ok m' /\
      chg m d fd (Some (dpre ++ map Some l ++ dpost)) m' /\ made m' = made m + length l /\ gone m' = gone m.
  Proof.
    induction l as [|x l ih]; intros m s d fs fd pre post dpre mid dpost i hsd hs hi hd hj hm;
      (destruct mid as [|y mid]; cbn [length] in hm; try lia); cbn [length map app copy_loop] in *.
    - exists m. split; [reflexivity|]. split; [apply chg_refl; exact hd|]. lia.
    - rewrite (load_ok _ _ _ _ _ _ _ hs hi). cbn [obind].
      destruct (construct_ok _ _ _ _ _ _ _ x hd hj) as (m1 & e1 & c1 & n1 & g1). rewrite e1. cbn [obind].
      destruct c1 as (c1 & c2 & c3).
      destruct (ih m1 s d fs fd (pre ++ [Some x]) post (dpre ++ [Some x]) mid dpost (S i)) as (m2 & e2 & d2 & n2 & g2);
        auto; try (rewrite app_length; cbn; lia).
      + rewrite c3, hs, <- app_assoc; auto.
      + rewrite c2, <- app_assoc. reflexivity.
      + exists m2. split; [exact e2|]. split; [|lia]. rewrite <- app_assoc in d2.
        eapply chg_trans; [|exact d2]. split; [exact c1|]. split; [exact c2|exact c3].
  Qed.
  Lemma copy_self l : forall m s f pre post i,
    nth_error (blocks m) s = Some (Blk f (Some (pre ++ map Some l ++ post))) -> length pre = i ->
    exists m', copy_loop m (Some s) (Some s) i (length l) = Ok m' /\
      chg m s f (Some (pre ++ map Some l ++ post)) m' /\ made m' = made m + length l /\ gone m' = gone m.
  Proof.
    induction l as [|x l ih]; intros m s f pre post i h hi; cbn [length map app copy_loop] in *.
    - exists m. split; [reflexivity|]. split; [apply chg_refl; exact h|]. lia.
    - rewrite (load_ok _ _ _ _ _ _ _ h hi). cbn [obind].
      destruct (construct_ok _ _ _ _ _ _ _ x h hi) as (m1 & e1 & c1 & n1 & g1). rewrite e1. cbn [obind].
      destruct (ih m1 s f (pre ++ [Some x]) post (S i)) as (m2 & e2 & c2 & n2 & g2).
      + destruct c1 as (_ & c1 & _). rewrite c1, <- app_assoc. reflexivity.
      + rewrite app_length; cbn; lia.
      + exists m2. split; [exact e2|]. split; [|lia]. rewrite <- app_assoc in c2. eapply chg_trans; eauto.
  Qed.

  (** What an array holds, and what a step of one array does to the memory of the others. *)
  Definition holds m a l : Prop :=
    osize a = length l /\ length l <= ocap a /\
    match ptr a with
    | None => ocap a = 0 /\ owns a = true
    | Some b => exists rest, nth_error (blocks m) b = Some (Blk (negb (owns a)) (Some (map Some l ++ rest))) /\
                             ocap a <= length l + length rest
    end.
  Definition live_own m b : Prop := exists c, nth_error (blocks m) b = Some (Blk false (Some c)).
  Definition kept m : Prop := forall b, nth_error (blocks m) b <> Some (Blk true None).
  Definition trans m a m' a' : Prop :=
    length (blocks m) <= length (blocks m') /\
    (forall b, b < length (blocks m) -> ptr a <> Some b -> nth_error (blocks m') b = nth_error (blocks m) b) /\
    (forall b, ptr a' = Some b -> ptr a = Some b \/ length (blocks m) <= b) /\
    (forall b, live_own m' b -> ptr a' = Some b \/ (b < length (blocks m) /\ ptr a <> Some b)) /\
    (kept m -> kept m').
  Definition bal m a m' a' : Prop := made m' + gone m + osize a = made m + gone m' + osize a'.

  Lemma eq_ptr_dec (p q : option nat) : {p = q} + {p <> q}.
  Proof. decide equality. apply Nat.eq_dec. Qed.

  Lemma trans_trans m a m1 a1 m2 a2 : trans m a m1 a1 -> trans m1 a1 m2 a2 -> trans m a m2 a2.
  Proof.
    intros (h1 & h2 & h3 & h4 & h5) (k1 & k2 & k3 & k4 & k5).
    assert (N : forall b, b < length (blocks m) -> ptr a <> Some b -> ptr a1 <> Some b).
    { intros b hb ha q. destruct (h3 b q); [contradiction|lia]. }
    split; [lia|]. split; [|split; [|split; [|auto]]].
    - intros b hb ha. rewrite k2, h2; auto; lia.
    - intros b hb. destruct (k3 b hb) as [q|q]; [apply h3; exact q|right; lia].
    - intros b hb. destruct (k4 b hb) as [q|[q1 q2]]; [left; exact q|]. right.
      assert (live_own m1 b) as w by (destruct hb as [c hb]; exists c; rewrite <- k2; auto).
      destruct (h4 b w) as [q|q]; [contradiction|exact q].
  Qed.
  Lemma trans_same m a a' : ptr a' = ptr a -> trans m a m a'.
  Proof.
    intros h. split; [lia|]. split; [auto|]. split; [intros b hb; left; congruence|]. split; [|auto].
    intros b [c hb]. apply nth_lt in hb. destruct (eq_ptr_dec (ptr a) (Some b)); [left; congruence|right; auto].
  Qed.
  Lemma trans_chg m a m' a' b f c0 c : ptr a = Some b -> ptr a' = Some b ->
    nth_error (blocks m) b = Some (Blk f (Some c0)) -> chg m b f (Some c) m' -> trans m a m' a'.
  Proof.
    intros ha ha' hb (k1 & k2 & k3). split; [lia|]. split; [intros j hj n; apply k3; congruence|].
    split; [intros j hj; left; congruence|]. split.
    - intros j [x hj]. apply nth_lt in hj. destruct (eq_ptr_dec (ptr a) (Some j)); [left; congruence|right].
      split; [lia|exact n].
    - intros q j hj. destruct (Nat.eq_dec j b) as [->|n]; [congruence|]. rewrite k3 in hj by exact n. exact (q j hj).
  Qed.
  Lemma holds_frame m m' b l p : holds m b l -> (forall j, ptr b = Some j -> p <> Some j) ->
    (forall j, j < length (blocks m) -> p <> Some j -> nth_error (blocks m') j = nth_error (blocks m) j) -> holds m' b l.
  Proof.
    intros (h1 & h2 & h3) hp hf. split; [exact h1|]. split; [exact h2|]. destruct (ptr b) as [j|]; [|exact h3].
    destruct h3 as (rest & h3 & h4). exists rest. split; [|exact h4].
    rewrite hf; auto. apply nth_lt in h3. exact h3.
  Qed.

  Lemma clear_ok m a l : holds m a l ->
    exists m', oa_clear m a = Ok (m', oa_new) /\ trans m a m' oa_new /\ bal m a m' oa_new.
  Proof.
    intros (h1 & h2 & h3). unfold oa_clear, deallocate, bal. rewrite h1. destruct (ptr a) as [b|] eqn:p.
    - destruct h3 as (rest & h3 & h4).
      destruct (destroy_ok l m b _ [] rest 0 h3 eq_refl) as (m1 & e1 & c1 & n1 & g1). rewrite e1. cbn [obind app] in *.
      destruct c1 as (c1 & c2 & c3). destruct (owns a) eqn:o; cbn [negb] in *.
      + rewrite c2. cbn [obind]. destruct (store_ok m1 b _ _ None c2) as ((d1 & d2 & d3) & d4 & d5).
        eexists. split; [reflexivity|]. cbn [oa_new osize]. split; [|lia].
        split; [lia|]. split; [intros j hj n; rewrite d3, c3; congruence|]. split; [intros j hj; discriminate hj|]. split.
        * intros j [x hj]. right. destruct (Nat.eq_dec j b) as [->|n]; [congruence|].
          apply nth_lt in hj. split; [lia|congruence].
        * intros q j hj. destruct (Nat.eq_dec j b) as [->|n]; [congruence|].
          rewrite d3, c3 in hj by exact n. exact (q j hj).
      + eexists. split; [reflexivity|]. cbn [oa_new osize]. split; [|lia].
        split; [lia|]. split; [intros j hj n; rewrite c3; congruence|]. split; [intros j hj; discriminate hj|]. split.
        * intros j [x hj]. right. destruct (Nat.eq_dec j b) as [->|n]; [congruence|].
          apply nth_lt in hj. split; [lia|congruence].
        * intros q j hj. destruct (Nat.eq_dec j b) as [->|n]; [congruence|].
          rewrite c3 in hj by exact n. exact (q j hj).
    - assert (length l = 0) as z by lia. rewrite z. cbn [destroy_loop obind].
      exists m. split; [reflexivity|]. split; [apply trans_same; rewrite p; reflexivity|]. cbn [oa_new osize]. lia.
  Qed.

  Lemma reserve_ok m a l n : holds m a l ->
    exists m' a', oa_reserve m a n = Ok (m', a') /\ holds m' a' l /\ trans m a m' a' /\ bal m a m' a' /\ n <= ocap a'.
  Proof.
    intros H. pose proof H as (h1 & h2 & h3). unfold oa_reserve.
    destruct (Nat.ltb_spec (ocap a) n) as [g|g].
    2:{ exists m, a. split; [reflexivity|]. split; [exact H|]. split; [apply trans_same; reflexivity|].
        split; [unfold bal; lia|lia]. }
    unfold allocate. destruct (Nat.eqb_spec n 0) as [z|_]; [lia|].
    set (s := length (blocks m)).
    set (m1 := Mem (blocks m ++ [Blk false (Some (repeat None n))]) (made m) (gone m)).
    assert (S1 : nth_error (blocks m1) s = Some (Blk false (Some (repeat None n)))).
    { cbn [m1 blocks]. unfold s. rewrite nth_error_app2, Nat.sub_diag by lia. reflexivity. }
    assert (F1 : forall j, j < s -> nth_error (blocks m1) j = nth_error (blocks m) j).
    { intros j hj. cbn [m1 blocks]. apply nth_error_app1. exact hj. }
    assert (L1 : length (blocks m1) = S s) by (cbn [m1 blocks]; rewrite app_length; cbn; unfold s; lia).
    rewrite h1. unfold deallocate. destruct (ptr a) as [b|] eqn:p.
    - destruct h3 as (rest & h3 & h4). pose proof (nth_lt _ _ _ h3) as hb. fold s in hb.
      assert (RR : repeat (@None T) n = [] ++ repeat None (length l) ++ repeat None (n - length l)).
      { cbn [app]. rewrite <- repeat_app. f_equal. lia. }
      destruct (copy_ok l m1 b s (negb (owns a)) false [] rest [] (repeat None (length l)) (repeat None (n - length l)) 0)
        as (m2 & e2 & (c1 & c2 & c3) & n2 & g2); auto; try lia.
      { rewrite F1; auto. } { rewrite S1, RR. reflexivity. } { apply repeat_length. }
      rewrite e2. cbn [obind app] in *.
      assert (B2 : nth_error (blocks m2) b = Some (Blk (negb (owns a)) (Some ([] ++ map Some l ++ rest)))).
      { rewrite c3, F1 by lia. exact h3. }
      destruct (destroy_ok l m2 b _ [] rest 0 B2 eq_refl) as (m3 & e3 & (d1 & d2 & d3) & n3 & g3).
      rewrite e3. cbn [obind app] in *.
      assert (HOLD : forall m4, nth_error (blocks m4) s = nth_error (blocks m3) s ->
                holds m4 (OA (Some s) (length l) n true) l).
      { intros m4 q. split; [reflexivity|]. cbn [osize ocap ptr owns negb]. split; [lia|].
        exists (repeat None (n - length l)). split; [rewrite q, d3, c2 by lia; reflexivity|].
        rewrite repeat_length. lia. }
      assert (TR : forall m4 k, length (blocks m4) = length (blocks m3) -> nth_error (blocks m4) b = Some k ->
                (forall c, k <> Blk false (Some c)) -> k <> Blk true None ->
                (forall j, j <> b -> nth_error (blocks m4) j = nth_error (blocks m3) j) ->
                trans m a m4 (OA (Some s) (length l) n true)).
      { intros m4 k q1 q2 q3 q4 q5. rewrite <- p in *. split; [unfold s in *; lia|].
        split; [|split; [|split]].
        - intros j hj nj. fold s in hj. rewrite p in nj. rewrite q5, d3, c3, F1; try congruence; try lia.
        - intros j hj. cbn [ptr] in hj. right. unfold s in hj. injection hj as <-. lia.
        - intros j [x hj]. cbn [ptr]. destruct (Nat.eq_dec j s) as [->|nj]; [left; reflexivity|right].
          destruct (Nat.eq_dec j b) as [->|nb]; [rewrite q2 in hj; injection hj as hj; exfalso; exact (q3 x hj)|].
          apply nth_lt in hj. fold s. split; [lia|rewrite p; congruence].
        - intros q j hj. destruct (Nat.eq_dec j b) as [->|nb]; [congruence|].
          rewrite q5, d3 in hj by exact nb. destruct (Nat.eq_dec j s) as [->|nj]; [congruence|].
          rewrite c3 in hj by exact nj. pose proof (nth_lt _ _ _ hj). rewrite F1 in hj by lia. exact (q j hj). }
      destruct (owns a) eqn:o; cbn [negb] in *.
      + rewrite d2. cbn [obind]. destruct (store_ok m3 b _ _ None d2) as ((f1 & f2 & f3) & f4 & f5).
        eexists _, _. split; [reflexivity|]. split; [apply HOLD; apply f3; lia|].
        split; [apply (TR _ (Blk false None)); auto; try congruence; intros c; discriminate|].
        unfold bal. cbn [osize ocap m1 made gone] in *. lia.
      + eexists _, _. split; [reflexivity|]. split; [apply HOLD; reflexivity|].
        split; [eapply TR; try reflexivity; [exact d2|intros c; discriminate|discriminate]|].
        unfold bal. cbn [osize ocap m1 made gone] in *. lia.
    - assert (length l = 0) as z by lia. destruct l; [|discriminate z]. cbn [length copy_loop destroy_loop obind].
      eexists _, _. split; [reflexivity|]. split; [|split; [|unfold bal; cbn [osize ocap m1 made gone length] in *; lia]].
      + split; [reflexivity|]. cbn [osize ocap ptr owns length]. split; [lia|].
        exists (repeat None n). split; [exact S1|]. rewrite repeat_length. lia.
      + split; [unfold s in *; lia|]. split; [|split; [|split]].
        * intros j hj _. apply F1. exact hj.
        * intros j hj. cbn [ptr] in hj. right. unfold s in hj. injection hj as <-. lia.
        * intros j [x hj]. cbn [ptr]. destruct (Nat.eq_dec j s) as [->|nj]; [left; reflexivity|right].
          apply nth_lt in hj. fold s. split; [lia|rewrite p; discriminate].
        * intros q j hj. destruct (Nat.eq_dec j s) as [->|nj]; [congruence|].
          pose proof (nth_lt _ _ _ hj). rewrite F1 in hj by lia. exact (q j hj).
  Qed.

  Lemma room_ok m a l : holds m a l ->
    exists m' a', oa_room m a = Ok (m', a') /\ holds m' a' l /\ trans m a m' a' /\ bal m a m' a' /\ osize a' < ocap a'.
  Proof.
    intros H. unfold oa_room. destruct (Nat.eqb_spec (osize a) (ocap a)) as [e|e].
    - destruct (reserve_ok m a l (alloc_size (osize a)) H) as (m' & a' & q1 & q2 & q3 & q4 & q5).
      exists m', a'. split; [exact q1|]. split; [exact q2|]. split; [exact q3|]. split; [exact q4|].
      destruct q2 as (r & _). destruct H as (r0 & _). unfold alloc_size in q5.
      destruct (Nat.eqb_spec (osize a) 0); lia.
    - exists m, a. split; [reflexivity|]. split; [exact H|]. split; [apply trans_same; reflexivity|].
      destruct H as (r0 & r1 & _). unfold bal. lia.
  Qed.
  Lemma holds_ptr m a l : holds m a l -> 0 < ocap a -> exists b rest, ptr a = Some b /\
    nth_error (blocks m) b = Some (Blk (negb (owns a)) (Some (map Some l ++ rest))) /\ ocap a <= length l + length rest.
  Proof.
    intros (h1 & h2 & h3) hc. destruct (ptr a) as [b|]; [|lia]. destruct h3 as (rest & h3). exists b, rest. auto.
  Qed.
  Lemma app_snoc_map l (v : T) rest : map Some l ++ Some v :: rest = map Some (l ++ [v]) ++ rest.
  Proof. rewrite map_app, <- app_assoc. reflexivity. Qed.

  Lemma end_ok m a l v : holds m a l -> osize a < ocap a ->
    exists m', construct m (ptr a) (osize a) v = Ok m' /\
      holds m' (OA (ptr a) (S (osize a)) (ocap a) (owns a)) (l ++ [v]) /\
      trans m a m' (OA (ptr a) (S (osize a)) (ocap a) (owns a)) /\
      bal m a m' (OA (ptr a) (S (osize a)) (ocap a) (owns a)).
  Proof.
    intros H hc. destruct (holds_ptr m a l H) as (b & rest & p & hb & hr); [lia|]. destruct H as (h1 & h2 & _).
    rewrite p, h1. destruct rest as [|x rest]; [cbn [length] in hr; lia|].
    destruct (construct_ok m b _ (map Some l) x rest (length l) v hb) as (m' & e & c & n & g); [apply map_length|].
    exists m'. split; [exact e|]. split; [|split; [eapply trans_chg; eauto|unfold bal; cbn [osize]; lia]].
    split; [cbn [osize]; rewrite app_length; cbn; lia|]. cbn [ptr ocap owns]. split; [rewrite app_length; cbn [length]; lia|].
    exists rest. destruct c as (_ & c & _). rewrite c, app_snoc_map. split; [reflexivity|].
    rewrite app_length. cbn [length] in *. lia.
  Qed.
  Lemma bal_trans m a m1 a1 m2 a2 : bal m a m1 a1 -> bal m1 a1 m2 a2 -> bal m a m2 a2.
  Proof. unfold bal. lia. Qed.

  Lemma push_ok m a l v : holds m a l ->
    exists m' a', oa_push m a v = Ok (m', a') /\ holds m' a' (l ++ [v]) /\ trans m a m' a' /\ bal m a m' a'.
  Proof.
    intros H. unfold oa_push. destruct (room_ok m a l H) as (m1 & a1 & e1 & H1 & t1 & b1 & c1). rewrite e1. cbn [obind].
    destruct (end_ok m1 a1 l v H1 c1) as (m2 & e2 & H2 & t2 & b2). rewrite e2. cbn [obind].
    eexists _, _. split; [reflexivity|]. split; [exact H2|].
    split; [eapply trans_trans; eauto|eapply bal_trans; eauto].
  Qed.

  Lemma pop_ok m a l v : holds m a (l ++ [v]) ->
    exists m' a', oa_pop m a = Ok (m', a') /\ holds m' a' l /\ trans m a m' a' /\ bal m a m' a'.
  Proof.
    intros H. assert (L : length (l ++ [v]) = S (length l)) by (rewrite app_length; cbn; lia).
    pose proof H as (h1 & h2 & _). destruct (holds_ptr m a _ H) as (b & rest & p & hb & hr); [lia|].
    unfold oa_pop. rewrite h1, L, p. rewrite <- app_snoc_map in hb.
    destruct (destruct_ok m b _ (map Some l) v rest (length l) hb) as (m' & e & c & n & g); [apply map_length|].
    rewrite e. cbn [obind]. eexists _, _. split; [reflexivity|].
    split; [|split; [eapply trans_chg; eauto|unfold bal; cbn [osize]; lia]].
    split; [reflexivity|]. cbn [ptr ocap owns]. split; [lia|].
    exists (None :: rest). destruct c as (_ & c & _). rewrite c. split; [reflexivity|]. cbn [length]. lia.
  Qed.

  Lemma resize_ok m a l n v : holds m a l ->
    exists m' a', oa_resize m a n v = Ok (m', a') /\ holds m' a' (firstn n l ++ repeat v (n - length l)) /\
      trans m a m' a' /\ bal m a m' a'.
  Proof.
    intros H. pose proof H as (h1 & h2 & _). unfold oa_resize. rewrite h1.
    destruct (Nat.ltb_spec n (length l)) as [g|g].
    - destruct (holds_ptr m a l H) as (b & rest & p & hb & hr); [lia|]. rewrite p.
      rewrite <- (firstn_skipn n l) in hb. rewrite map_app, <- app_assoc in hb.
      assert (L1 : length (firstn n l) = n) by (rewrite firstn_length; lia).
      destruct (destroy_ok (skipn n l) m b _ (map Some (firstn n l)) rest n hb) as (m' & e & c & k1 & k2);
        [rewrite map_length; exact L1|].
      rewrite skipn_length in *. rewrite e. cbn [obind]. eexists _, _. split; [reflexivity|].
      replace (n - length l) with 0 by lia. cbn [repeat]. rewrite app_nil_r.
      split; [|split; [eapply trans_chg; eauto|unfold bal; cbn [osize]; lia]].
      split; [cbn [osize]; lia|]. cbn [ptr ocap owns]. split; [lia|].
      exists (repeat None (length l - n) ++ rest). destruct c as (_ & c & _). rewrite c. split; [reflexivity|].
      rewrite app_length, repeat_length. lia.
    - rewrite firstn_all2 by lia. destruct (Nat.ltb_spec (length l) n) as [g'|g'].
      + destruct (reserve_ok m a l n H) as (m1 & a1 & e1 & H1 & t1 & b1 & c1). rewrite e1. cbn [obind].
        destruct (holds_ptr m1 a1 l H1) as (b & rest & p & hb & hr); [lia|]. rewrite p.
        assert (R : rest = firstn (n - length l) rest ++ skipn (n - length l) rest) by (symmetry; apply firstn_skipn).
        assert (L1 : length (firstn (n - length l) rest) = n - length l) by (rewrite firstn_length; lia).
        rewrite R in hb.
        destruct (fill_ok v _ m1 b _ (map Some l) _ (length l) hb) as (m2 & e2 & c2 & k1 & k2); [apply map_length|].
        rewrite L1 in *. rewrite e2. cbn [obind]. eexists _, _. split; [reflexivity|].
        assert (L2 : length (l ++ repeat v (n - length l)) = n) by (rewrite app_length, repeat_length; lia).
        split; [|split].
        * split; [cbn [osize]; lia|]. cbn [ptr ocap owns]. split; [lia|].
          exists (skipn (n - length l) rest). destruct c2 as (_ & c2 & _). rewrite c2. split.
          { rewrite map_app, <- app_assoc. do 5 f_equal. clear. induction (n - length l) as [|k ih]; cbn; congruence. }
          rewrite L2, skipn_length. lia.
        * eapply trans_trans; [exact t1|]. eapply trans_chg; eauto.
        * eapply bal_trans; [exact b1|]. destruct H1 as (q & _). unfold bal. cbn [osize]. lia.
      + replace (n - length l) with 0 by lia. cbn [obind fill_loop repeat]. rewrite app_nil_r.
        replace n with (osize a) by lia. exists m, a. destruct a as [pa sa ca oa]. cbn [ptr osize ocap owns] in *.
        split; [reflexivity|]. split; [exact H|]. split; [apply trans_same; reflexivity|unfold bal; lia].
  Qed.

  Lemma buffer_ok m a l l' spare : holds m a l ->
    exists m' a', oa_buffer m a l' spare = Ok (m', a') /\ holds m' a' l' /\ trans m a m' a' /\ bal m a m' a'.
  Proof.
    intros H. destruct (clear_ok m a l H) as (m1 & e1 & t1 & b1). unfold oa_buffer. rewrite e1. cbn [obind].
    eexists _, _. split; [reflexivity|]. split; [|split].
    - split; [reflexivity|]. cbn [osize ocap ptr owns negb blocks]. split; [lia|]. exists (repeat None spare).
      rewrite nth_error_app2, Nat.sub_diag by lia. split; [reflexivity|]. rewrite repeat_length. lia.
    - eapply trans_trans; [exact t1|]. split; [cbn [blocks]; rewrite app_length; lia|].
      split; [|split; [|split]]; cbn [blocks ptr].
      + intros j hj _. apply nth_error_app1. exact hj.
      + intros j hj. injection hj as <-. right. lia.
      + intros j [x hj]. cbn [blocks] in hj. destruct (Nat.eq_dec j (length (blocks m1))) as [->|n]; [left; reflexivity|right].
        apply nth_lt in hj. rewrite app_length in hj. cbn [length] in hj. split; [lia|discriminate].
      + intros q j hj. cbn [blocks] in hj. destruct (Nat.ltb_spec j (length (blocks m1))).
        * rewrite nth_error_app1 in hj by lia. exact (q j hj).
        * rewrite nth_error_app2 in hj by lia. destruct (j - length (blocks m1)) as [|[|z]]; discriminate hj.
    - eapply bal_trans; [exact b1|]. unfold bal. cbn [oa_new osize made gone]. lia.
  Qed.

  Lemma set_ok m a p x q v : holds m a (p ++ x :: q) ->
    exists m', put m (ptr a) (length p) v = Ok m' /\ holds m' a (p ++ v :: q) /\ trans m a m' a /\ bal m a m' a.
  Proof.
    intros H. assert (L : length (p ++ x :: q) = S (length p + length q)) by (rewrite app_length; cbn; lia).
    pose proof H as (h1 & h2 & _). destruct (holds_ptr m a _ H) as (b & rest & e & hb & hr); [lia|].
    rewrite map_app, <- app_assoc in hb. cbn [map app] in hb. unfold put. rewrite e.
    rewrite (load_ok _ _ _ _ _ _ (length p) hb) by apply map_length. rewrite (deref_ok _ _ _ _ hb). cbn [obind].
    rewrite upd_app by apply map_length.
    destruct (store_ok m b _ _ (Some (map Some p ++ Some v :: map Some q ++ rest)) hb) as (c & k1 & k2).
    eexists. split; [reflexivity|]. split; [|split; [eapply trans_chg; eauto|unfold bal; lia]].
    assert (L' : length (p ++ v :: q) = length (p ++ x :: q)) by (rewrite !app_length; reflexivity).
    split; [lia|]. split; [lia|]. rewrite e. exists rest. destruct c as (_ & c & _). rewrite c.
    split; [rewrite map_app, <- app_assoc; reflexivity|lia].
  Qed.
  Lemma get_ok m a l i x : holds m a l -> nth_error l i = Some x -> load m (ptr a) i = Ok x.
  Proof.
    intros H hx. pose proof (nth_lt _ _ _ hx). destruct (nth_error_split l i hx) as (p & q & -> & e).
    assert (L : length (p ++ x :: q) = S (length p + length q)) by (rewrite app_length; cbn; lia).
    pose proof H as (h1 & h2 & _). destruct (holds_ptr m a _ H) as (b & rest & eb & hb & hr); [lia|].
    rewrite map_app, <- app_assoc in hb. cbn [map app] in hb. rewrite eb. eapply load_ok; [exact hb|].
    rewrite map_length. exact e.
  Qed.

  Lemma assign_ok m a b l lb d : holds m a l -> holds m b lb -> (forall j, ptr b = Some j -> ptr a <> Some j) ->
    exists m' a', oa_assign m a b d = Ok (m', a') /\ holds m' a' lb /\ trans m a m' a'.
  Proof.
    intros H Hb hd. unfold oa_assign. destruct (resize_ok m a l (osize b) d H) as (m1 & a1 & e1 & H1 & t1 & _).
    rewrite e1. cbn [obind]. pose proof t1 as (_ & f1 & f2 & _ & _).
    assert (Hb1 : holds m1 b lb) by (apply (holds_frame m m1 b lb (ptr a)); auto).
    assert (bs : osize b = length lb) by (destruct Hb as (q & _); exact q).
    set (l1 := firstn (osize b) l ++ repeat d (osize b - length l)) in *.
    assert (L1 : length l1 = length lb) by (unfold l1; rewrite app_length, firstn_length, repeat_length; lia).
    rewrite bs. destruct lb as [|x lb].
    - destruct l1; [|discriminate L1]. cbn [length copy_loop obind]. eexists _, _. split; [reflexivity|]. auto.
    - pose proof H1 as (s1 & c1 & _). destruct (holds_ptr m1 a1 l1 H1) as (p & rest & ep & hp & hr); [cbn [length] in *; lia|].
      destruct (holds_ptr m1 b _ Hb1) as (q & rq & eq & hq & _); [destruct Hb1 as (_ & z & _); cbn [length] in z; lia|].
      assert (ne : q <> p).
      { intros ->. destruct (f2 p ep) as [z|z]; [exact (hd p eq z)|].
        destruct Hb as (_ & _ & Hb). rewrite eq in Hb. destruct Hb as (r & Hb & _). apply nth_lt in Hb. lia. }
      rewrite ep, eq.
      destruct (copy_ok (x :: lb) m1 q p _ _ [] rq [] (map Some l1) rest 0 ne hq eq_refl hp eq_refl) as (m2 & e2 & c2 & _);
        [rewrite map_length; exact L1|].
      rewrite e2. cbn [obind]. eexists _, _. split; [reflexivity|]. split.
      + split; [lia|]. split; [lia|]. rewrite ep. exists rest. destruct c2 as (_ & c2 & _). rewrite c2.
        split; [reflexivity|lia].
      + eapply trans_trans; [exact t1|]. eapply trans_chg; eauto.
  Qed.
  Lemma assign_self m a l d : holds m a l ->
    exists m' a', oa_assign m a a d = Ok (m', a') /\ holds m' a' l /\ trans m a m' a'.
  Proof.
    intros H. pose proof H as (h1 & h2 & h3). unfold oa_assign, oa_resize. rewrite Nat.ltb_irrefl, Nat.sub_diag.
    cbn [obind fill_loop]. destruct a as [p s c o]. cbn [ptr osize ocap owns] in *. subst s.
    destruct p as [b|].
    - destruct h3 as (rest & hb & hr).
      destruct (copy_self l m b _ [] rest 0 hb eq_refl) as (m2 & e2 & c2 & _). rewrite e2. cbn [obind].
      eexists _, _. split; [reflexivity|]. split; [|eapply trans_chg; eauto; reflexivity].
      split; [reflexivity|]. split; [exact h2|]. cbn [ptr owns ocap]. exists rest. destruct c2 as (_ & c2 & _).
      split; [exact c2|exact hr].
    - assert (length l = 0) as z by lia. destruct l; [|discriminate z]. cbn [length copy_loop obind].
      eexists _, _. split; [reflexivity|]. split; [exact H|apply trans_same; reflexivity].
  Qed.

  (** Programs. *)
  Fixpoint total (ls : list (list T)) : nat := match ls with [] => 0 | l :: r => length l + total r end.
  Definition inv (w : world T) (ls : list (list T)) : Prop :=
    length (snd w) = length ls /\
    (forall k a l, nth_error (snd w) k = Some a -> nth_error ls k = Some l -> holds (fst w) a l) /\
    (forall i j a b p, nth_error (snd w) i = Some a -> nth_error (snd w) j = Some b ->
                       ptr a = Some p -> ptr b = Some p -> i = j) /\
    (forall b, live_own (fst w) b -> exists k a, nth_error (snd w) k = Some a /\ ptr a = Some b) /\
    kept (fst w).
  Definition even_ (w : world T) (ls : list (list T)) : Prop := made (fst w) = gone (fst w) + total ls.

  Lemma total_upd ls : forall k l l', nth_error ls k = Some l -> total (upd ls k l') + length l = total ls + length l'.
  Proof.
    intros k l l' h. destruct (nth_error_split ls k h) as (p & q & -> & e). rewrite (upd_app p q l l' k e).
    clear. induction p as [|x p ih]; cbn [app total]; lia.
  Qed.
  Lemma becomes_upd ls k l l' : nth_error ls k = Some l -> becomes ls k l' (upd ls k l').
  Proof.
    intros h. apply nth_lt in h. split; [apply upd_length|]. split; [apply upd_same; exact h|].
    intros j hj. apply upd_other. exact hj.
  Qed.
  Lemma inv_at w ls k l : inv w ls -> nth_error ls k = Some l -> exists a, nth_error (snd w) k = Some a /\ holds (fst w) a l.
  Proof.
    intros (h1 & h2 & _) h. destruct (nth_error (snd w) k) as [a|] eqn:e.
    - exists a. split; [reflexivity|]. eapply h2; eauto.
    - apply nth_error_None in e. apply nth_lt in h. lia.
  Qed.
  Lemma inv_upd w ls k a l' m' a' : inv w ls -> nth_error (snd w) k = Some a -> trans (fst w) a m' a' -> holds m' a' l' ->
    inv (m', upd (snd w) k a') (upd ls k l').
  Proof.
    destruct w as [m as_]. cbn [fst snd]. intros (h1 & h2 & h3 & h4 & h5) hk (t1 & t2 & t3 & t4 & t5) H'. cbn [fst snd] in *.
    assert (PL : forall i b p, nth_error as_ i = Some b -> ptr b = Some p -> p < length (blocks m)).
    { intros i b p hi hp. destruct (nth_error ls i) as [l|] eqn:e.
      - destruct (h2 i b l hi e) as (_ & _ & q). rewrite hp in q. destruct q as (r & q & _). exact (nth_lt _ _ _ q).
      - apply nth_error_None in e. apply nth_lt in hi. lia. }
    assert (NP : forall i b p, i <> k -> nth_error as_ i = Some b -> ptr b = Some p -> ptr a' <> Some p).
    { intros i b p hi hb hp q. destruct (t3 p q) as [z|z]; [exact (hi (h3 i k b a p hb hk hp z))|].
      pose proof (PL i b p hb hp). lia. }
    pose proof (nth_lt _ _ _ hk) as lk. split; [cbn [snd]; rewrite !upd_length; exact h1|]. cbn [fst snd].
    split; [|split; [|split; [|auto]]].
    - intros i b l hb hl. destruct (Nat.eq_dec i k) as [->|n].
      + rewrite upd_same in hb by lia. rewrite upd_same in hl by lia. injection hb as <-. injection hl as <-. exact H'.
      + rewrite upd_other in hb by exact n. rewrite upd_other in hl by exact n.
        apply (holds_frame m m' b l (ptr a)); auto; [eapply h2; eauto|].
        intros j hj q. exact (n (h3 i k b a j hb hk hj q)).
    - intros i j b c p hb hc pb pc. destruct (Nat.eq_dec i k) as [->|ni]; destruct (Nat.eq_dec j k) as [->|nj]; auto.
      + rewrite upd_same in hb by lia. injection hb as <-. rewrite upd_other in hc by exact nj.
        exfalso. exact (NP j c p nj hc pc pb).
      + rewrite upd_same in hc by lia. injection hc as <-. rewrite upd_other in hb by exact ni.
        exfalso. exact (NP i b p ni hb pb pc).
      + rewrite upd_other in hb by exact ni. rewrite upd_other in hc by exact nj. eapply h3; eauto.
    - intros b hb. destruct (t4 b hb) as [q|[q1 q2]].
      + exists k, a'. split; [apply upd_same; lia|exact q].
      + assert (live_own m b) as w by (destruct hb as [c hb]; exists c; rewrite <- t2; auto).
        destruct (h4 b w) as (i & c & hc & pc). exists i, c. split; [|exact pc].
        rewrite upd_other; [exact hc|]. intros ->. rewrite hk in hc. injection hc as <-. contradiction.
  Qed.

  Lemma on_ok w ls k l l' f m' a' : inv w ls -> nth_error ls k = Some l ->
    (exists a, nth_error (snd w) k = Some a /\ f (fst w) a = Ok (m', a') /\ holds m' a' l' /\ trans (fst w) a m' a') ->
    on w k f = Ok ((m', upd (snd w) k a'), PUnit) /\ becomes ls k l' (upd ls k l') /\
    inv (m', upd (snd w) k a') (upd ls k l').
  Proof.
    intros I hl (a & ha & e & H & t). unfold on. rewrite ha, e. cbn [obind]. split; [reflexivity|].
    split; [eapply becomes_upd; eauto|]. eapply inv_upd; eauto.
  Qed.
  Lemma even_upd w ls k l l' a m' a' as' : even_ w ls -> nth_error ls k = Some l -> holds (fst w) a l -> holds m' a' l' ->
    bal (fst w) a m' a' -> even_ (m', as') (upd ls k l').
  Proof.
    unfold even_, bal. cbn [fst]. intros h hl (q1 & _) (q2 & _) b. pose proof (total_upd ls k l l' hl). lia.
  Qed.
  Lemma upd_id {A} (ls : list A) k (l : A) : nth_error ls k = Some l -> upd ls k l = ls.
  Proof. intros h. destruct (nth_error_split ls k h) as (p & q & -> & e). apply upd_app. exact e. Qed.
  Lemma lt_nth {A} (ls : list A) k : k < length ls -> exists l : A, nth_error ls k = Some l.
  Proof. intros h. destruct (nth_error ls k) eqn:e; [eauto|]. apply nth_error_None in e. lia. Qed.

  Lemma step_ok w ls o : inv w ls -> pallowed o ls ->
    exists w' r ls', pool_step w o = Ok (w', r) /\ pdoes o ls r ls' /\ inv w' ls' /\
      (~ assigns o -> even_ w ls -> even_ w' ls').
  Proof.
    intros I al. destruct o as [k v|k|k n v|k n|k|k j d|k l' sp|k i v|k i|k]; cbn [pallowed pool_step pdoes assigns] in *.
    - destruct (lt_nth ls k al) as [l hl]. destruct (inv_at w ls k l I hl) as (a & ha & H).
      destruct (push_ok _ _ _ v H) as (m' & a' & e & H' & t & b).
      destruct (on_ok w ls k l (l ++ [v]) (fun m a => oa_push m a v) m' a' I hl) as (q1 & q2 & q3); [eauto 6|].
      eexists _, _, _. split; [exact q1|]. split; [eauto|]. split; [exact q3|]. intros _ E. eapply even_upd; eauto.
    - destruct al as (l0 & hl & ne). destruct (exists_last ne) as (l & v & ->). destruct (inv_at w ls k _ I hl) as (a & ha & H).
      destruct (pop_ok _ _ _ v H) as (m' & a' & e & H' & t & b).
      destruct (on_ok w ls k _ l oa_pop m' a' I hl) as (q1 & q2 & q3); [eauto 6|].
      eexists _, _, _. split; [exact q1|]. split; [eauto|]. split; [exact q3|]. intros _ E. eapply even_upd; eauto.
    - destruct (lt_nth ls k al) as [l hl]. destruct (inv_at w ls k l I hl) as (a & ha & H).
      destruct (resize_ok _ _ _ n v H) as (m' & a' & e & H' & t & b).
      destruct (on_ok w ls k l (firstn n l ++ repeat v (n - length l)) (fun m a => oa_resize m a n v) m' a' I hl) as (q1 & q2 & q3); [eauto 6|].
      eexists _, _, _. split; [exact q1|]. split; [eauto|]. split; [exact q3|]. intros _ E. eapply even_upd; eauto.
    - destruct (lt_nth ls k al) as [l hl]. destruct (inv_at w ls k l I hl) as (a & ha & H).
      destruct (reserve_ok _ _ _ n H) as (m' & a' & e & H' & t & b & _).
      destruct (on_ok w ls k l l (fun m a => oa_reserve m a n) m' a' I hl) as (q1 & q2 & q3); [eauto 6|].
      eexists _, _, (upd ls k l). split; [exact q1|]. split; [split; [reflexivity|apply upd_id; exact hl]|].
      split; [exact q3|]. intros _ E. eapply even_upd; eauto.
    - destruct (lt_nth ls k al) as [l hl]. destruct (inv_at w ls k l I hl) as (a & ha & H).
      destruct (clear_ok _ _ _ H) as (m' & e & t & b).
      assert (H' : holds m' oa_new []) by (split; [reflexivity|]; split; [cbn; lia|]; cbn; auto).
      destruct (on_ok w ls k l [] oa_clear m' oa_new I hl) as (q1 & q2 & q3); [eauto 6|].
      eexists _, _, _. split; [exact q1|]. split; [eauto|]. split; [exact q3|]. intros _ E. eapply even_upd; eauto.
    - destruct al as (ak & aj). destruct (lt_nth ls k ak) as [l hl]. destruct (lt_nth ls j aj) as [lb hlb].
      destruct (inv_at w ls k l I hl) as (a & ha & H). destruct (inv_at w ls j lb I hlb) as (b & hb & Hb). rewrite hb.
      assert (exists m' a', oa_assign (fst w) a b d = Ok (m', a') /\ holds m' a' lb /\ trans (fst w) a m' a')
        as (m' & a' & e & H' & t).
      { destruct (Nat.eq_dec j k) as [->|n].
        - rewrite ha in hb. injection hb as <-. rewrite hl in hlb. injection hlb as <-. apply assign_self. exact H.
        - apply (assign_ok (fst w) a b l lb d H Hb). intros p pb pa. destruct I as (_ & _ & I3 & _).
          exact (n (I3 j k b a p hb ha pb pa)). }
      destruct (on_ok w ls k l lb (fun m a => oa_assign m a b d) m' a' I hl) as (q1 & q2 & q3); [eauto 6|].
      eexists _, _, _. split; [exact q1|]. split; [eauto|]. split; [exact q3|]. intros q. exfalso. apply q. exact Logic.I.
    - destruct (lt_nth ls k al) as [l hl]. destruct (inv_at w ls k l I hl) as (a & ha & H).
      destruct (buffer_ok _ _ _ l' sp H) as (m' & a' & e & H' & t & b).
      destruct (on_ok w ls k l l' (fun m a => oa_buffer m a l' sp) m' a' I hl) as (q1 & q2 & q3); [eauto 6|].
      eexists _, _, _. split; [exact q1|]. split; [eauto|]. split; [exact q3|]. intros _ E. eapply even_upd; eauto.
    - destruct al as (l & hl & hi). destruct (lt_nth l i hi) as [x hx].
      destruct (nth_error_split l i hx) as (p & q & -> & ei). destruct (inv_at w ls k _ I hl) as (a & ha & H).
      destruct (set_ok _ _ _ _ _ v H) as (m' & e & H' & t & b). rewrite ei in e.
      destruct (on_ok w ls k _ (p ++ v :: q) (fun m a => obind (put m (ptr a) i v) (fun m' => Ok (m', a))) m' a I hl)
        as (q1 & q2 & q3).
      { exists a. rewrite e. auto. }
      exists (m', upd (snd w) k a), PUnit, (upd ls k (p ++ v :: q)). split; [exact q1|]. split; [split; [reflexivity|]; exists p, x, q; auto|].
      split; [exact q3|]. intros _ E. eapply even_upd; eauto.
    - destruct al as (l & hl & hi). destruct (lt_nth l i hi) as [x hx]. destruct (inv_at w ls k _ I hl) as (a & ha & H).
      rewrite ha, (get_ok _ _ _ _ _ H hx). cbn [obind]. exists w, (PVal x), ls. split; [reflexivity|].
      split; [split; [reflexivity|]; eauto 6|]. auto.
    - destruct (lt_nth ls k al) as [l hl]. destruct (inv_at w ls k l I hl) as (a & ha & H). rewrite ha.
      destruct H as (s & _). rewrite s. exists w, (PNum (length l)), ls. split; [reflexivity|].
      split; [split; [reflexivity|]; eauto 6|]. auto.
  Qed.

  Lemma run_ok ops : forall w ls, inv w ls -> pall ops ls ->
    exists w' rs ls', pool_run w ops = Ok (w', rs) /\ pgives ops ls rs ls' /\ inv w' ls' /\
      (Forall (fun o => ~ assigns o) ops -> even_ w ls -> even_ w' ls').
  Proof.
    induction ops as [|o ops ih]; intros w ls I al; cbn [pall pool_run] in *.
    - exists w, [], ls. split; [reflexivity|]. split; [reflexivity|]. auto.
    - destruct al as (a1 & a2). destruct (step_ok w ls o I a1) as (w1 & r & ls1 & e1 & d1 & I1 & E1).
      rewrite e1. cbn [obind fst snd]. destruct (ih w1 ls1 I1 (a2 r ls1 d1)) as (w2 & rs & ls2 & e2 & d2 & I2 & E2).
      rewrite e2. cbn [obind fst snd]. exists w2, (r :: rs), ls2. split; [reflexivity|]. split; [exists ls1; auto|].
      split; [exact I2|]. intros F E. inversion F; subst. auto.
  Qed.

  Lemma start_ok n : inv (pool_start n) (repeat [] n).
  Proof.
    unfold pool_start. split; [cbn [snd]; rewrite !repeat_length; reflexivity|]. cbn [fst snd].
    assert (R : forall A (x y : A) k, nth_error (repeat x n) k = Some y -> y = x).
    { intros A x y k h. apply nth_error_In in h. apply repeat_spec in h. exact h. }
    split; [|split; [|split]].
    - intros k a l ha hl. apply R in ha. apply R in hl. subst. split; [reflexivity|]. split; [cbn; lia|]. cbn. auto.
    - intros i j a b p ha hb pa pb. apply R in ha. subst. discriminate pa.
    - intros b [c hb]. cbn [blocks] in hb. destruct b; discriminate hb.
    - intros b hb. cbn [blocks] in hb. destruct b; discriminate hb.
  Qed.
  Lemma start_even n : even_ (pool_start n) (repeat [] n).
  Proof. unfold even_. cbn [pool_start fst made gone]. induction n as [|n ih]; cbn [repeat total length]; lia. Qed.

  Lemma inv_reads w ls : inv w ls -> reads w ls.
  Proof.
    intros I. split; [destruct I as (q & _); exact q|]. intros k l hl. destruct (inv_at w ls k l I hl) as (a & ha & H).
    cbn [pool_step]. rewrite ha. split; [destruct H as (s & _); rewrite s; reflexivity|].
    intros i x hx. rewrite (get_ok _ _ _ _ _ H hx). reflexivity.
  Qed.

  Lemma clear_all_ok as_ : forall m ls, inv (m, as_) ls ->
    exists m', clear_all m as_ = Ok m' /\ all_freed m' /\ made m' + gone m + total ls = made m + gone m'.
  Proof.
    induction as_ as [|a as_ ih]; intros m ls (h1 & h2 & h3 & h4 & h5); cbn [fst snd clear_all] in *.
    - destruct ls; [|discriminate h1]. exists m. split; [reflexivity|]. split; [|cbn [total]; lia].
      intros b f c hb. destruct f.
      + intros ->. exact (h5 b hb).
      + destruct c as [c|]; [exfalso|reflexivity].
        destruct (h4 b (ex_intro _ c hb)) as (k & a & ha & _). destruct k; discriminate ha.
    - destruct ls as [|l ls]; [discriminate h1|].
      pose proof (h2 0 a l eq_refl eq_refl) as H. destruct (clear_ok m a l H) as (m1 & e1 & (t1 & t2 & t3 & t4 & t5) & b1).
      rewrite e1. cbn [obind]. destruct (ih m1 ls) as (m2 & e2 & f2 & n2).
      + split; [cbn [length snd] in *; lia|]. cbn [fst snd]. split; [|split; [|split; [|auto]]].
        * intros k b l' hb hl. apply (holds_frame m m1 b l' (ptr a)); auto; [exact (h2 (S k) b l' hb hl)|].
          intros j hj q. discriminate (h3 (S k) 0 b a j hb eq_refl hj q).
        * intros i j b c p hb hc pb pc. pose proof (h3 (S i) (S j) b c p hb hc pb pc). lia.
        * intros b hb. destruct (t4 b hb) as [q|[q1 q2]]; [discriminate q|].
          assert (live_own m b) as w by (destruct hb as [c hb]; exists c; rewrite <- t2; auto).
          destruct (h4 b w) as (k & c & hc & pc). destruct k as [|k]; [injection hc as <-; contradiction|].
          exists k, c. auto.
      + exists m2. split; [exact e2|]. split; [exact f2|]. destruct H as (s & _).
        unfold bal in b1. cbn [oa_new osize total] in *. lia.
  Qed.

  (** The own element. *)
  Lemma reserve_dead m a l n i : holds m a l -> ocap a < n -> i < length l ->
    exists m' a', oa_reserve m a n = Ok (m', a') /\ load m' (ptr a) i = Undef.
  Proof.
    intros H g hi. destruct (reserve_ok m a l n H) as (m' & a' & e & H' & _).
    exists m', a'. split; [exact e|]. pose proof H as (h1 & h2 & _).
    destruct (holds_ptr m a l H) as (b & rest & p & hb & hr); [lia|]. pose proof (nth_lt _ _ _ hb) as lb.
    revert e. unfold oa_reserve. destruct (Nat.ltb_spec (ocap a) n); [|lia].
    unfold allocate. destruct (Nat.eqb_spec n 0); [lia|]. rewrite h1, p.
    set (s := length (blocks m)) in *.
    set (m1 := Mem (blocks m ++ [Blk false (Some (repeat None n))]) (made m) (gone m)).
    assert (B1 : nth_error (blocks m1) b = Some (Blk (negb (owns a)) (Some ([] ++ map Some l ++ rest)))).
    { cbn [m1 blocks]. rewrite nth_error_app1 by exact lb. exact hb. }
    destruct (copy_ok l m1 b s (negb (owns a)) false [] rest [] (repeat None (length l)) (repeat None (n - length l)) 0)
      as (m2 & e2 & (c1 & c2 & c3) & _); auto; try lia.
    { cbn [m1 blocks]. unfold s. rewrite nth_error_app2, Nat.sub_diag by lia. cbn [nth_error app].
      rewrite <- repeat_app. do 4 f_equal. lia. }
    { apply repeat_length. }
    rewrite e2. cbn [obind]. rewrite <- (c3 b) in B1 by lia.
    destruct (destroy_ok l m2 b _ [] rest 0 B1 eq_refl) as (m3 & e3 & (d1 & d2 & d3) & _). rewrite e3. cbn [obind app] in *.
    unfold deallocate. rewrite p. destruct (owns a); cbn [negb] in *.
    - rewrite d2. cbn [obind]. destruct (store_ok m3 b _ _ None d2) as ((f1 & f2 & f3) & _).
      intros q. assert (m' = store m3 (Some b) None) as -> by congruence. unfold load, deref. rewrite f2. reflexivity.
    - cbn [obind]. intros q. assert (m' = m3) as -> by congruence. unfold load, deref. rewrite d2. cbn [obind].
      rewrite nth_error_app1 by (rewrite repeat_length; exact hi).
      assert (nth_error (repeat (@None T) (length l)) i = Some None) as ->; [|reflexivity].
      destruct (nth_error (repeat (@None T) (length l)) i) as [y|] eqn:y1.
      + apply nth_error_In, repeat_spec in y1. congruence.
      + apply nth_error_None in y1. rewrite repeat_length in y1. lia.
  Qed.
  Lemma own_ok m a l i x : holds m a l -> nth_error l i = Some x ->
    (osize a < ocap a -> oa_push_own m a i = oa_push m a x) /\ (osize a = ocap a -> oa_push_own m a i = Undef).
  Proof.
    intros H hx. pose proof H as (h1 & h2 & _). pose proof (nth_lt _ _ _ hx) as hi. split; intros hc.
    - unfold oa_push_own, oa_push, oa_room. destruct (Nat.eqb_spec (osize a) (ocap a)); [lia|]. cbn [obind].
      rewrite (get_ok _ _ _ _ _ H hx). reflexivity.
    - unfold oa_push_own, oa_room. rewrite hc, Nat.eqb_refl.
      destruct (reserve_dead m a l (alloc_size (ocap a)) i H) as (m' & a' & e & q); auto.
      { unfold alloc_size. destruct (Nat.eqb_spec (ocap a) 0); lia. }
      rewrite e. cbn [obind]. rewrite q. reflexivity.
  Qed.
End Proofs.
