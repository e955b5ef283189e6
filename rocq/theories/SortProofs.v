(** * Proofs about sorting *)
From Coq Require Import List ZArith Bool Arith Lia Permutation.
From Verif Require Import Common SortModel SortSpec.
Import ListNotations.
Local Open Scope Z_scope.

Section Sort.
  Context {T : Type}.
  Variable lt : T -> T -> bool.
  Hypothesis W : strict_weak lt.
  Variable d : T.
  Notation g a k := (nth (Z.to_nat k) a d).
  Notation len a := (Z.of_nat (length a)).
  Notation le x y := (lt y x = false).

  Lemma le_refl x : le x x.
  Proof. destruct (lt x x) eqn:E; [|reflexivity]. rewrite (proj1 W _ _ E) in E. discriminate E. Qed.
  Lemma le_trans x y z : le x y -> le y z -> le x z.
  Proof. intros A B. exact (proj2 W _ _ _ B A). Qed.
  Lemma lt_le x y : lt x y = true -> le x y.
  Proof. apply (proj1 W). Qed.

  Lemma rd_ok (a : list T) i : 0 <= i < len a -> rd a i = Ok (g a i).
  Proof.
    intros H. unfold rd. destruct (Z.ltb_spec i 0); [lia|]. rewrite (nth_error_nth' a d) by lia. reflexivity.
  Qed.
  Lemma rd_inv (a : list T) i v : rd a i = Ok v -> 0 <= i < len a.
  Proof.
    unfold rd. destruct (Z.ltb_spec i 0); [discriminate|]. destruct (nth_error a (Z.to_nat i)) eqn:E; [|discriminate]. intros _.
    assert (Z.to_nat i < length a)%nat by (apply nth_error_Some; now rewrite E). lia.
  Qed.
  Lemma nth_put (a : list T) i v k : (i < length a)%nat -> nth k (firstn i a ++ v :: skipn (S i) a) d = if (k =? i)%nat then v else nth k a d.
  Proof.
    intros H. assert (L : length (firstn i a) = i) by (rewrite firstn_length; lia).
    destruct (Nat.eqb_spec k i) as [->|N].
    - rewrite app_nth2 by lia. rewrite L, Nat.sub_diag. reflexivity.
    - destruct (Nat.lt_ge_cases k i) as [K|K].
      + rewrite app_nth1 by lia. rewrite <- (firstn_skipn i a) at 2. rewrite app_nth1 by lia. reflexivity.
      + rewrite app_nth2 by lia. rewrite L. destruct (k - i)%nat as [|m] eqn:E; [lia|]. cbn [nth].
        rewrite <- (firstn_skipn (S i) a) at 2. rewrite app_nth2 by (rewrite firstn_length; lia). f_equal. rewrite firstn_length. lia.
  Qed.
  Lemma wr_ok (a : list T) i v : 0 <= i < len a ->
    exists a', wr a i v = Ok a' /\ length a' = length a /\ forall k, 0 <= k -> g a' k = if k =? i then v else g a k.
  Proof.
    intros H. unfold wr. rewrite (proj2 (Z.leb_le 0 i)), (proj2 (Z.ltb_lt i (len a))) by lia. cbn [andb]. eexists. split; [reflexivity|]. split.
    - rewrite app_length. cbn [length]. rewrite firstn_length, skipn_length. lia.
    - intros k Hk. rewrite nth_put by lia. destruct (Z.eqb_spec k i), (Nat.eqb_spec (Z.to_nat k) (Z.to_nat i)); try reflexivity; lia.
  Qed.
  Lemma swp_ok (a : list T) i j : 0 <= i < len a -> 0 <= j < len a ->
    exists a', swp a i j = Ok a' /\ length a' = length a /\ Permutation a a' /\
      forall k, 0 <= k -> g a' k = if k =? j then g a i else if k =? i then g a j else g a k.
  Proof.
    intros Hi Hj. unfold swp. rewrite (rd_ok a i Hi), (rd_ok a j Hj). cbn [obind].
    destruct (wr_ok a i (g a j) Hi) as (b & -> & Lb & Gb). cbn [obind].
    destruct (wr_ok b j (g a i) ltac:(lia)) as (c & -> & Lc & Gc). exists c. split; [reflexivity|]. split; [lia|].
    assert (G : forall k, 0 <= k -> g c k = if k =? j then g a i else if k =? i then g a j else g a k).
    { intros k Hk. rewrite Gc by exact Hk. destruct (k =? j); [reflexivity|]. now apply Gb. }
    split; [|exact G]. apply (Permutation_nth a c d). split; [lia|].
    set (I := Z.to_nat i). set (J := Z.to_nat j).
    exists (fun k => if (k =? J)%nat then I else if (k =? I)%nat then J else k). split; [|split].
    - intros k Hk. destruct (k =? J)%nat; [lia|]. destruct (k =? I)%nat; lia.
    - intros x y Hx Hy. destruct (Nat.eqb_spec x J), (Nat.eqb_spec x I), (Nat.eqb_spec y J), (Nat.eqb_spec y I); lia.
    - intros k Hk. specialize (G (Z.of_nat k) ltac:(lia)). rewrite Nat2Z.id in G. rewrite G.
      destruct (Z.eqb_spec (Z.of_nat k) j), (Nat.eqb_spec k J); try lia; [reflexivity|].
      destruct (Z.eqb_spec (Z.of_nat k) i), (Nat.eqb_spec k I); try lia; reflexivity.
  Qed.

  (** ** quickSort *)
  Lemma scan_up_ok (a : list T) x s : forall fuel i, 0 <= i <= s -> s < len a -> le x (g a s) -> (Z.to_nat (s - i) < fuel)%nat ->
    exists i', scan_up lt fuel a x i = Ok i' /\ i <= i' <= s /\ le x (g a i') /\ forall k, i <= k < i' -> le (g a k) x.
  Proof.
    induction fuel as [|f IH]; intros i Hi Hs Hx Hf; [lia|]. cbn [scan_up]. rewrite rd_ok by lia. cbn [obind].
    destruct (lt (g a i) x) eqn:E.
    - destruct (Z.eq_dec i s) as [->|N]; [rewrite E in Hx; discriminate|].
      destruct (IH (i + 1)) as (i' & -> & A & B & C); try lia; [exact Hx|]. exists i'. split; [reflexivity|]. split; [lia|]. split; [exact B|].
      intros k Hk. destruct (Z.eq_dec k i) as [->|]; [now apply lt_le|]. apply C. lia.
    - exists i. split; [reflexivity|]. split; [lia|]. split; [exact E|]. intros k Hk. lia.
  Qed.
  Lemma scan_down_ok (a : list T) x s : forall fuel j, 0 <= s <= j -> j < len a -> le (g a s) x -> (Z.to_nat (j - s) < fuel)%nat ->
    exists j', scan_down lt fuel a x j = Ok j' /\ s <= j' <= j /\ le (g a j') x /\ forall k, j' < k <= j -> le x (g a k).
  Proof.
    induction fuel as [|f IH]; intros j Hi Hs Hx Hf; [lia|]. cbn [scan_down]. rewrite rd_ok by lia. cbn [obind].
    destruct (lt x (g a j)) eqn:E.
    - destruct (Z.eq_dec j s) as [->|N]; [rewrite E in Hx; discriminate|].
      destruct (IH (j - 1)) as (j' & -> & A & B & C); try lia; [exact Hx|]. exists j'. split; [reflexivity|]. split; [lia|]. split; [exact B|].
      intros k Hk. destruct (Z.eq_dec k j) as [->|]; [now apply lt_le|]. apply C. lia.
    - exists j. split; [reflexivity|]. split; [lia|]. split; [exact E|]. intros k Hk. lia.
  Qed.

  (** what a function that works on the places from lo to hi may do *)
  Definition inside lo hi (a a' : list T) : Prop :=
    length a' = length a /\ Permutation a a' /\ (forall k, 0 <= k -> k < lo \/ hi < k -> g a' k = g a k) /\
    forall P : T -> Prop, (forall k, lo <= k <= hi -> P (g a k)) -> forall k, lo <= k <= hi -> P (g a' k).
  Lemma inside_refl lo hi a : inside lo hi a a.
  Proof. split; [reflexivity|]. split; [apply Permutation_refl|]. split; [reflexivity|]. intros P H. exact H. Qed.
  Lemma inside_trans lo hi a b c : inside lo hi a b -> inside lo hi b c -> inside lo hi a c.
  Proof.
    intros (L1 & P1 & O1 & Q1) (L2 & P2 & O2 & Q2). split; [lia|]. split; [now apply (Permutation_trans P1)|]. split.
    - intros k Hk Ho. now rewrite O2, O1.
    - intros P H. apply Q2. now apply Q1.
  Qed.
  Lemma inside_wide lo hi lo' hi' a b : 0 <= lo' -> lo' <= lo -> hi <= hi' -> inside lo hi a b -> inside lo' hi' a b.
  Proof.
    intros H0' H1 H2 (L & P & O & Q). split; [exact L|]. split; [exact P|]. split.
    - intros k Hk Ho. apply O; lia.
    - intros X H k Hk. destruct (Z_lt_dec k lo); [rewrite O by lia; now apply H|]. destruct (Z_lt_dec hi k); [rewrite O by lia; now apply H|].
      apply Q; [|lia]. intros m Hm. apply H. lia.
  Qed.
  Lemma inside_swp lo hi a i j : 0 <= lo -> lo <= i <= hi -> lo <= j <= hi -> hi < len a -> exists a', swp a i j = Ok a' /\ inside lo hi a a' /\
    forall k, 0 <= k -> g a' k = if k =? j then g a i else if k =? i then g a j else g a k.
  Proof.
    intros H0' Hi Hj Hl. destruct (swp_ok a i j ltac:(lia) ltac:(lia)) as (a' & E & L & P & G). exists a'. split; [exact E|]. split; [|exact G].
    split; [exact L|]. split; [exact P|]. split.
    - intros k Hk Ho. rewrite G by exact Hk. destruct (Z.eqb_spec k j); [lia|]. destruct (Z.eqb_spec k i); [lia|]. reflexivity.
    - intros X H k Hk. rewrite G by lia. destruct (k =? j); [apply H; lia|]. destruct (k =? i); apply H; lia.
  Qed.

  Lemma partition_ok lo hi x : 0 <= lo -> forall fuel (a : list T) i j s s',
    hi < len a -> lo <= i -> j <= hi -> i <= s <= hi -> lo <= s' <= j ->
    le x (g a s) -> le (g a s') x -> (Z.to_nat (hi - i) < fuel)%nat -> (Z.to_nat (j - lo) < fuel)%nat ->
    (forall k, lo <= k < i -> le (g a k) x) -> (forall k, j < k <= hi -> le x (g a k)) ->
    s = s' \/ (lo < i /\ j < hi) ->
    exists a' i' j', partition lt fuel a x i j = Ok (a', i', j') /\ inside lo hi a a' /\ j' < i' /\ lo < i' /\ j' < hi /\
      (forall k, lo <= k < i' -> le (g a' k) x) /\ (forall k, j' < k <= hi -> le x (g a' k)).
  Proof.
    intros H0'. induction fuel as [|f IH]; intros a i j s s' Hl Hi Hj Hs Hs' Xs Xs' F1 F2 A B C; [lia|]. cbn [partition].
    destruct (scan_up_ok a x s (S f) i ltac:(lia) ltac:(lia) Xs ltac:(lia)) as (i1 & E1 & I1 & I2 & I3). rewrite E1. cbn [obind]. clear E1.
    destruct (scan_down_ok a x s' (S f) j ltac:(lia) ltac:(lia) Xs' ltac:(lia)) as (j1 & E2 & J1 & J2 & J3). rewrite E2. cbn [obind]. clear E2.
    assert (A1 : forall k, lo <= k < i1 -> le (g a k) x) by (intros k Hk; destruct (Z_lt_dec k i); [apply A|apply I3]; lia).
    assert (B1 : forall k, j1 < k <= hi -> le x (g a k)) by (intros k Hk; destruct (Z_lt_dec j k); [apply B|apply J3]; lia).
    destruct (Z.leb_spec i1 j1) as [K|K]; cbn [obind].
    - destruct (inside_swp lo hi a i1 j1 ltac:(lia) ltac:(lia) ltac:(lia) ltac:(lia)) as (b & E & Ib & Gb). rewrite E. cbn [obind]. clear E.
      assert (A2 : forall k, lo <= k < i1 + 1 -> le (g b k) x).
      { intros k Hk. rewrite Gb by lia. destruct (Z.eqb_spec k j1) as [->|].
        - assert (i1 = j1) as -> by lia. exact J2.
        - destruct (Z.eqb_spec k i1); [exact J2|]. apply A1. lia. }
      assert (B2 : forall k, j1 - 1 < k <= hi -> le x (g b k)).
      { intros k Hk. rewrite Gb by lia. destruct (Z.eqb_spec k j1) as [->|]; [exact I2|].
        destruct (Z.eqb_spec k i1); [lia|]. apply B1. lia. }
      destruct (Z.leb_spec (i1 + 1) (j1 - 1)) as [M|M].
      + destruct (IH b (i1 + 1) (j1 - 1) j1 i1) as (c & i' & j' & E & Ic & R); try lia; try assumption.
        * destruct Ib as (Lb & _). rewrite Lb. exact Hl.
        * apply B2. lia.
        * apply A2. lia.
        * exists c, i', j'. split; [exact E|]. split; [now apply (inside_trans _ _ _ b)|exact R].
      + exists b, (i1 + 1), (j1 - 1). split; [reflexivity|]. split; [exact Ib|]. split; [lia|]. split; [lia|]. split; [lia|]. split; [exact A2|exact B2].
    - destruct (Z.leb_spec i1 j1); [lia|].
      exists a, i1, j1. split; [reflexivity|]. split; [apply inside_refl|]. split; [lia|].
      destruct C as [C|C]; [exfalso|split; [lia|]; split; [lia|]; split; [exact A1|exact B1]].
      lia.
  Qed.

  Definition sorted_in lo hi (a : list T) : Prop := forall p q, lo <= p -> p < q -> q <= hi -> le (g a p) (g a q).

  Lemma quick_internal_ok : forall fuel (a : list T) lo hi, 0 <= lo -> lo < hi -> hi < len a -> (Z.to_nat (hi - lo) < fuel)%nat ->
    exists a', quick_internal lt fuel a lo hi = Ok a' /\ inside lo hi a a' /\ sorted_in lo hi a'.
  Proof.
    induction fuel as [|f IH]; intros a lo hi H0' H1 H2 Hf; [lia|]. cbn [quick_internal].
    set (m := Z.quot (lo + hi) 2). assert (Hm : lo <= m <= hi).
    { unfold m. rewrite Z.quot_div_nonneg by lia. split; [apply Z.div_le_lower_bound; lia|apply Z.div_le_upper_bound; lia]. }
    rewrite rd_ok by lia. cbn [obind]. set (x := g a m).
    destruct (partition_ok lo hi x H0' (S f) a lo hi m m) as (b & i & j & E & Ib & K1 & K2 & K3 & A & B);
      try lia; try (apply le_refl).
    rewrite E. cbn [obind]. clear E. assert (Lb : length b = length a) by apply Ib.
    assert (C : exists c, (if lo <? j then quick_internal lt f b lo j else Ok b) = Ok c /\ inside lo j b c /\ sorted_in lo j c).
    { destruct (Z.ltb_spec lo j) as [K|K]; [apply IH; lia|]. exists b. split; [reflexivity|]. split; [apply inside_refl|]. intros p q Hp Hpq Hq. lia. }
    destruct C as (c & -> & Ic & Sc). cbn [obind]. assert (Lc : length c = length b) by apply Ic.
    assert (D : exists e, (if i <? hi then quick_internal lt f c i hi else Ok c) = Ok e /\ inside i hi c e /\ sorted_in i hi e).
    { destruct (Z.ltb_spec i hi) as [K|K]; [apply IH; lia|]. exists c. split; [reflexivity|]. split; [apply inside_refl|]. intros p q Hp Hpq Hq. lia. }
    destruct D as (e & -> & Ie & Se). exists e. split; [reflexivity|]. split.
    - apply (inside_trans _ _ _ b); [exact Ib|]. apply (inside_trans _ _ _ c); eapply inside_wide; try eassumption; lia.
    - destruct Ic as (_ & _ & Oc & Qc). destruct Ie as (_ & _ & Oe & Qe).
      assert (Ac : forall k, lo <= k < i -> le (g e k) x).
      { intros k Hk. rewrite Oe by lia. destruct (Z_lt_dec j k); [rewrite Oc by lia; now apply A|].
        apply (Qc (fun v => le v x)); [|lia]. intros z Hz. apply A. lia. }
      assert (Bc : forall k, lo <= k -> j < k <= hi -> le x (g e k)).
      { intros k Hk0 Hk. destruct (Z_lt_dec k i); [rewrite Oe, Oc by lia; now apply B|].
        apply (Qe (fun v => le x v)); [|lia]. intros z Hz. rewrite Oc by lia. apply B. lia. }
      intros p q Hp Hpq Hq. destruct (Z_le_dec q j) as [Q|Q].
      + rewrite !Oe by lia. apply Sc; lia.
      + destruct (Z_le_dec i p) as [P|P]; [apply Se; lia|]. apply (le_trans _ x); [apply Ac|apply Bc]; lia.
  Qed.

  (** ** heapSort *)
  (** heap at m: the children of m up to n (counted from 1) are not greater *)
  Definition heap_at n (a : list T) m : Prop := forall c, c <= n -> Z.quot c 2 = m -> le (g a (c - 1)) (g a (m - 1)).

  Lemma half c m : 0 <= c -> Z.quot c 2 = m -> c = 2 * m \/ c = 2 * m + 1.
  Proof. intros H E. rewrite Z.quot_div_nonneg in E by lia. pose proof (Z.div_mod c 2). pose proof (Z.mod_pos_bound c 2). lia. Qed.
  Lemma half_of c m : 0 <= m -> c = 2 * m \/ c = 2 * m + 1 -> Z.quot c 2 = m.
  Proof. intros H [-> | ->]; rewrite Z.quot_div_nonneg by lia; symmetry; [apply (Z.div_unique _ _ _ 0)|apply (Z.div_unique _ _ _ 1)]; lia. Qed.

  (** the array with temp at its place is [b]; [k] is the place *)
  Lemma down_loop_ok k0 n : 1 <= k0 -> forall fuel (a b : list T) temp k,
    k0 <= k -> n <= len a -> k <= len a -> (Z.to_nat (n - k) < fuel)%nat ->
    length b = length a -> (forall i, 0 <= i -> g b i = if i =? k - 1 then temp else g a i) ->
    (forall m, k0 <= m -> m <> k -> heap_at n b m) ->
    (forall m c, k0 <= m -> m = Z.quot k 2 -> c <= n -> Z.quot c 2 = k -> le (g b (c - 1)) (g b (m - 1))) ->
    exists a' k' b', down_loop lt fuel a temp k n = Ok (a', k') /\ wr a' (k' - 1) temp = Ok b' /\
      (n <= k0 -> k' = k /\ a' = a) /\
      length b' = length b /\ Permutation b b' /\ (forall i, 0 <= i -> i < k0 - 1 \/ (k0 <= n /\ n <= i) -> g b' i = g b i) /\
      (forall P : T -> Prop, (forall i, k0 - 1 <= i < n -> P (g b i)) -> forall i, k0 - 1 <= i < n -> P (g b' i)) /\
      forall m, k0 <= m -> heap_at n b' m.
  Proof.
    intros Hk0. induction fuel as [|f IH]; intros a b temp k Hk Hn Hkl Hf Lb Gb Hh Hp; [lia|]. cbn [down_loop].
    assert (stop : (forall c, c <= n -> Z.quot c 2 = k -> le (g b (c - 1)) temp) ->
      exists b', wr a (k - 1) temp = Ok b' /\ length b' = length b /\ Permutation b b' /\
      (forall i, 0 <= i -> i < k0 - 1 \/ (k0 <= n /\ n <= i) -> g b' i = g b i) /\
      (forall P : T -> Prop, (forall i, k0 - 1 <= i < n -> P (g b i)) -> forall i, k0 - 1 <= i < n -> P (g b' i)) /\
      forall m, k0 <= m -> heap_at n b' m).
    { intros Hc. destruct (wr_ok a (k - 1) temp ltac:(lia)) as (b' & E & L & G). exists b'. split; [exact E|].
      assert (b' = b) as ->.
      { apply (nth_ext _ _ d d); [lia|]. intros i Hi. specialize (G (Z.of_nat i) ltac:(lia)). specialize (Gb (Z.of_nat i) ltac:(lia)).
        rewrite Nat2Z.id in G, Gb. congruence. }
      split; [reflexivity|]. split; [apply Permutation_refl|]. split; [reflexivity|]. split; [intros P HP; exact HP|].
      intros m Hm. destruct (Z.eq_dec m k) as [->|N]; [|now apply Hh]. intros c Hcn Hck.
      replace (g b (k - 1)) with temp; [now apply Hc|]. rewrite Gb by lia. now rewrite Z.eqb_refl. }
    destruct (Z.leb_spec k (Z.quot n 2)) as [K|K].
    2: { destruct stop as (b' & S1 & S2 & S3 & S4 & S5 & S6).
         - intros c Hc Hck. exfalso. destruct (Z_le_dec 0 c) as [C|C].
           + assert (Z.quot c 2 <= Z.quot n 2) by (apply Z.quot_le_mono; lia). lia.
           + assert (Z.quot c 2 <= 0); [|lia]. change 0 with (Z.quot 0 2). apply Z.quot_le_mono; lia.
         - exists a, k, b'. split; [reflexivity|]. split; [exact S1|]. split; [intros _; split; reflexivity|]. split; [exact S2|]. split; [exact S3|]. split; [exact S4|]. split; [exact S5|exact S6]. }
    assert (Hn2 : 2 * k <= n).
    { destruct (Z_le_dec 0 n) as [C|C].
      - rewrite Z.quot_div_nonneg in K by lia. pose proof (Z.mul_div_le n 2). lia.
      - assert (Z.quot n 2 <= 0); [|lia]. change 0 with (Z.quot 0 2). apply Z.quot_le_mono; lia. }
    assert (Gc : forall c, 2 * k <= c -> g b (c - 1) = g a (c - 1)).
    { intros c Hc. rewrite Gb by lia. destruct (Z.eqb_spec (c - 1) (k - 1)); [lia|reflexivity]. }
    (* the child *)
    assert (CH : exists c, (if 2 * k <? n then obind (rd a (2 * k - 1)) (fun u => obind (rd a (2 * k)) (fun v => Ok (if lt u v then 2 * k + 1 else 2 * k))) else Ok (2 * k)) = Ok c /\
      c <= n /\ (c = 2 * k \/ c = 2 * k + 1) /\ forall c', c' <= n -> Z.quot c' 2 = k -> le (g b (c' - 1)) (g b (c - 1))).
    { assert (HH : forall c', c' <= n -> Z.quot c' 2 = k -> c' = 2 * k \/ c' = 2 * k + 1).
      { intros c' H1 H2. apply half; [|exact H2]. destruct (Z_le_dec 0 c') as [|C]; [assumption|].
        assert (Z.quot c' 2 <= 0); [|lia]. change 0 with (Z.quot 0 2). apply Z.quot_le_mono; lia. }
      destruct (Z.ltb_spec (2 * k) n) as [M|M].
      - rewrite !rd_ok by lia. cbn [obind]. eexists. split; [reflexivity|].
        destruct (lt (g a (2 * k - 1)) (g a (2 * k))) eqn:E.
        + split; [lia|]. split; [now right|]. intros c' H1 H2. rewrite !Gc by (destruct (HH c' H1 H2); lia).
          replace (2 * k + 1 - 1) with (2 * k) by lia. destruct (HH c' H1 H2) as [-> | ->]; [now apply lt_le|]. replace (2 * k + 1 - 1) with (2 * k) by lia. apply le_refl.
        + split; [lia|]. split; [now left|]. intros c' H1 H2. rewrite !Gc by (destruct (HH c' H1 H2); lia).
          destruct (HH c' H1 H2) as [-> | ->]; [apply le_refl|]. replace (2 * k + 1 - 1) with (2 * k) by lia. exact E.
      - exists (2 * k). split; [reflexivity|]. split; [lia|]. split; [now left|]. intros c' H1 H2.
        destruct (HH c' H1 H2) as [-> | ->]; [apply le_refl|lia]. }
    destruct CH as (c & -> & Cn & C2 & Cm). cbn [obind]. rewrite rd_ok by lia. cbn [obind].
    destruct (lt temp (g a (c - 1))) eqn:E.
    2: { destruct stop as (b' & S1 & S2 & S3 & S4 & S5 & S6).
         - intros c' H1 H2. apply (le_trans _ (g b (c - 1))); [now apply Cm|]. rewrite Gc by lia. exact E.
         - exists a, k, b'. split; [reflexivity|]. split; [exact S1|]. split; [intros _; split; reflexivity|]. split; [exact S2|]. split; [exact S3|]. split; [exact S4|]. split; [exact S5|exact S6]. }
    destruct (wr_ok a (k - 1) (g a (c - 1)) ltac:(lia)) as (a2 & -> & L2 & G2). cbn [obind].
    destruct (swp_ok b (k - 1) (c - 1) ltac:(lia) ltac:(lia)) as (b2 & _ & Lb2 & Pb2 & Gb2).
    assert (Gk : g b (k - 1) = temp) by (rewrite Gb by lia; now rewrite Z.eqb_refl).
    assert (Ck : Z.quot c 2 = k) by (apply half_of; lia).
    assert (Q2 : forall P : T -> Prop, (forall i, k0 - 1 <= i < n -> P (g b i)) -> forall i, k0 - 1 <= i < n -> P (g b2 i)).
    { intros P HP i Hi. rewrite Gb2 by lia. destruct (i =? c - 1); [apply HP; lia|]. destruct (i =? k - 1); apply HP; lia. }
    destruct (IH a2 b2 temp c) as (a' & k' & b' & R1 & R2 & R3 & R4 & R5 & R6 & R7 & R8); try lia.
    - intros i Hi. rewrite Gb2 by exact Hi. rewrite Gk. destruct (i =? c - 1); [reflexivity|]. rewrite G2 by exact Hi.
      destruct (Z.eqb_spec i (k - 1)); rewrite Gb by lia; [destruct (Z.eqb_spec (c - 1) (k - 1))|destruct (Z.eqb_spec i (k - 1))]; first [lia|reflexivity].
    - (* heap everywhere but at c *)
      intros m Hm Nm c' H1 H2. destruct (Z_le_dec 0 c') as [P0|P0].
      2: { exfalso. assert (Z.quot c' 2 <= 0); [|lia]. change 0 with (Z.quot 0 2). apply Z.quot_le_mono; lia. }
      pose proof (half c' m P0 H2) as H3. rewrite !Gb2 by lia.
      destruct (Z.eqb_spec (m - 1) (c - 1)); [lia|].
      destruct (Z.eqb_spec (m - 1) (k - 1)) as [Em|Em].
      + assert (m = k) by lia. subst m. destruct (Z.eqb_spec (c' - 1) (c - 1)).
        * rewrite Gk, Gc by lia. now apply lt_le.
        * destruct (Z.eqb_spec (c' - 1) (k - 1)); [lia|]. now apply Cm.
      + destruct (Z.eqb_spec (c' - 1) (c - 1)).
        * exfalso. assert (c' = c) by lia. subst c'. lia.
        * destruct (Z.eqb_spec (c' - 1) (k - 1)) as [E1|E1].
          -- assert (c' = k) by lia. subst c'. apply Hp; try lia.
          -- apply Hh; lia.
    - (* the parent of c is k, which has the value of c now *)
      intros m c' Hm Em H1 H2. rewrite Ck in Em. subst m. destruct (Z_le_dec 0 c') as [P0|P0].
      2: { exfalso. assert (Z.quot c' 2 <= 0); [|lia]. change 0 with (Z.quot 0 2). apply Z.quot_le_mono; lia. }
      pose proof (half c' c P0 H2) as H3. rewrite !Gb2 by lia.
      destruct (Z.eqb_spec (c' - 1) (c - 1)); [lia|]. destruct (Z.eqb_spec (c' - 1) (k - 1)); [lia|].
      destruct (Z.eqb_spec (k - 1) (c - 1)); [lia|]. rewrite Z.eqb_refl. apply Hh; try lia.
    - exists a', k', b'. split; [exact R1|]. split; [exact R2|]. split; [intros; lia|]. split; [lia|]. split; [now apply (Permutation_trans Pb2)|]. split; [|split; [|exact R8]].
      + intros i Hi Ho. rewrite R6 by lia. rewrite Gb2 by exact Hi. destruct (Z.eqb_spec i (c - 1)); [lia|]. destruct (Z.eqb_spec i (k - 1)); [lia|reflexivity].
      + intros P HP. apply R7. now apply Q2.
  Qed.

  Lemma down_heap_ok fuel (a : list T) k n : 1 <= k -> n <= len a -> k <= len a -> (Z.to_nat (n - k) < fuel)%nat ->
    (forall m, k < m -> heap_at n a m) ->
    exists b, down_heap lt fuel a k n = Ok b /\ length b = length a /\ Permutation a b /\
      (forall i, 0 <= i -> n <= i -> g b i = g a i) /\
      (forall P : T -> Prop, (forall i, k - 1 <= i < n -> P (g a i)) -> forall i, k - 1 <= i < n -> P (g b i)) /\
      forall m, k <= m -> heap_at n b m.
  Proof.
    intros Hk Hn Hkl Hf Hh. unfold down_heap. rewrite rd_ok by lia. cbn [obind].
    destruct (down_loop_ok k n Hk fuel a a (g a (k - 1)) k) as (a' & k' & b & E & Ew & Es & L & P & O & Q & G); try lia.
    - intros i Hi. destruct (Z.eqb_spec i (k - 1)) as [->|]; reflexivity.
    - intros m Hm N. apply Hh. lia.
    - intros m c Hm Em. assert (m < k); [|lia]. subst m. rewrite Z.quot_div_nonneg by lia. apply Z.div_lt; lia.
    - rewrite E. cbn [obind]. exists b. split; [exact Ew|]. split; [exact L|]. split; [exact P|]. split; [|split; [exact Q|exact G]].
      intros i Hi Hni. destruct (Z_le_dec k n) as [K|K]; [apply O; lia|].
      destruct (Es ltac:(lia)) as [-> ->]. destruct (wr_ok a (k - 1) (g a (k - 1)) ltac:(lia)) as (b' & E' & _ & G'). rewrite Ew in E'. injection E' as <-.
      rewrite G' by lia. destruct (Z.eqb_spec i (k - 1)) as [->|]; reflexivity.
  Qed.

  Lemma heapify_ok : forall fuel (a : list T) k n, 0 <= k -> n <= len a -> k <= len a -> (Z.to_nat (n + k) < fuel)%nat ->
    (forall m, k < m -> heap_at n a m) -> 0 <= n ->
    exists b, heapify lt fuel a k n = Ok b /\ length b = length a /\ Permutation a b /\ forall m, 1 <= m -> heap_at n b m.
  Proof.
    induction fuel as [|f IH]; intros a k n Hk Hn Hkl Hf Hh Hn0; [lia|]. cbn [heapify]. destruct (Z.ltb_spec 0 k) as [K|K].
    - destruct (down_heap_ok (S f) a k n ltac:(lia) Hn Hkl ltac:(lia) Hh) as (b & -> & L & P & _ & _ & G). cbn [obind].
      destruct (IH b (k - 1) n) as (c & -> & L' & P' & G'); try lia; [intros m Hm; apply G; lia|].
      exists c. split; [reflexivity|]. split; [lia|]. split; [now apply (Permutation_trans P)|exact G'].
    - exists a. split; [reflexivity|]. split; [reflexivity|]. split; [apply Permutation_refl|]. intros m Hm. apply Hh. lia.
  Qed.

  Lemma heap_root n (a : list T) : (forall m, 1 <= m -> heap_at n a m) -> forall s m, (Z.to_nat m < s)%nat -> 1 <= m <= n -> le (g a (m - 1)) (g a 0).
  Proof.
    intros H. induction s as [|s IH]; intros m Hs Hm; [lia|]. destruct (Z.eq_dec m 1) as [->|N]; [apply le_refl|].
    assert (Q : Z.quot m 2 < m /\ 1 <= Z.quot m 2).
    { rewrite Z.quot_div_nonneg by lia. split; [apply Z.div_lt; lia|]. apply Z.div_le_lower_bound; lia. }
    apply (le_trans _ (g a (Z.quot m 2 - 1))); [apply H; lia|]. apply IH; lia.
  Qed.

  Lemma extract_ok : forall fuel (a : list T) n, 0 <= n <= len a -> (Z.to_nat n < fuel)%nat ->
    (forall m, 1 <= m -> heap_at n a m) ->
    (forall p q, 0 <= p -> p < q -> n <= q -> q < len a -> le (g a p) (g a q)) ->
    exists b, extract lt fuel a n = Ok b /\ length b = length a /\ Permutation a b /\ sorted_in 0 (len a - 1) b.
  Proof.
    induction fuel as [|f IH]; intros a n Hn Hf Hh Hs; [lia|]. cbn [extract]. destruct (Z.leb_spec 1 n) as [K|K].
    - destruct (swp_ok a 0 (n - 1) ltac:(lia) ltac:(lia)) as (b & -> & Lb & Pb & Gb). cbn [obind].
      destruct (down_heap_ok (S f) b 1 (n - 1)) as (c & -> & Lc & Pc & Oc & Qc & Gc); try lia.
      { intros m Hm c' H1 H2. destruct (Z_le_dec 0 c') as [P0|P0].
        2: { exfalso. assert (Z.quot c' 2 <= 0); [|lia]. change 0 with (Z.quot 0 2). apply Z.quot_le_mono; lia. }
        pose proof (half c' m P0 H2). rewrite !Gb by lia.
        destruct (Z.eqb_spec (c' - 1) (n - 1)); [lia|]. destruct (Z.eqb_spec (c' - 1) 0); [lia|].
        destruct (Z.eqb_spec (m - 1) (n - 1)); [lia|]. destruct (Z.eqb_spec (m - 1) 0); [lia|]. apply (Hh m); lia. }
      cbn [obind]. destruct (IH c (n - 1)) as (e & -> & Le & Pe & Se); try lia; [exact Gc| |].
      + assert (Top : forall q, n - 1 <= q < len a -> forall i, 0 <= i < n - 1 -> le (g b i) (g b q)).
        { intros q Hq i Hi. rewrite !Gb by lia. destruct (Z.eqb_spec i (n - 1)); [lia|].
          destruct (Z.eqb_spec q (n - 1)).
          - destruct (Z.eqb_spec i 0).
            + apply (heap_root n a Hh (S (Z.to_nat n)) n); lia.
            + replace i with (i + 1 - 1) by lia. apply (heap_root n a Hh (S (Z.to_nat n)) (i + 1)); lia.
          - destruct (Z.eqb_spec q 0); [lia|]. destruct (Z.eqb_spec i 0); apply Hs; lia. }
        intros p q Hp Hpq Hnq Hq. rewrite (Oc q) by lia. destruct (Z_lt_dec p (n - 1)) as [L|L].
        * apply (Qc (fun v => le v (g b q))); [|lia]. intros i Hi. apply Top; lia.
        * rewrite (Oc p) by lia. rewrite !Gb by lia. destruct (Z.eqb_spec q (n - 1)); [lia|]. destruct (Z.eqb_spec q 0); [lia|].
          destruct (Z.eqb_spec p (n - 1)); [apply Hs; lia|]. destruct (Z.eqb_spec p 0); [lia|]. apply Hs; lia.
      + exists e. split; [reflexivity|]. split; [lia|]. split; [apply (Permutation_trans Pb), (Permutation_trans Pc), Pe|]. rewrite Lc, Lb in Se. exact Se.
    - exists a. split; [reflexivity|]. split; [reflexivity|]. split; [apply Permutation_refl|]. intros p q Hp Hpq Hq. apply Hs; lia.
  Qed.

  Lemma sorted_in_sorted (a : list T) : sorted_in 0 (len a - 1) a -> sorted lt a.
  Proof.
    intros H l x m y r ->. specialize (H (len l) (len l + 1 + len m)). rewrite !app_length in H. cbn [length] in H. rewrite app_length in H. cbn [length] in H.
    specialize (H ltac:(lia) ltac:(lia) ltac:(lia)).
    replace (Z.to_nat (len l)) with (length l) in H by lia. replace (Z.to_nat (len l + 1 + len m)) with (length l + S (length m))%nat in H by lia.
    rewrite nth_middle in H. rewrite app_nth2_plus in H. cbn [nth] in H. rewrite nth_middle in H. exact H.
  Qed.
  Lemma sorted_sorted_in (a : list T) : sorted lt a -> sorted_in 0 (len a - 1) a.
  Proof.
    intros H p q Hp Hpq Hq. destruct (nth_split a d (n := Z.to_nat p)) as (l & r & E & L); [lia|].
    destruct (nth_split r d (n := Z.to_nat q - Z.to_nat p - 1)) as (m & r' & E' & L').
    { apply (f_equal (@length T)) in E. rewrite app_length in E. cbn [length] in E. lia. }
    assert (g a q = nth (Z.to_nat q - Z.to_nat p - 1) r d) as ->.
    { rewrite E at 1. rewrite app_nth2 by lia. rewrite L. destruct (Z.to_nat q - Z.to_nat p)%nat eqn:Z1; [lia|]. cbn [nth]. f_equal. lia. }
    apply (H l _ m _ r'). rewrite <- E'. exact E.
  Qed.

  (** ** Searching *)
  Lemma bin_loop_ok (a : list T) key : sorted_in 0 (len a - 1) a -> forall fuel first last,
    0 <= first -> last < len a -> first <= last + 1 -> (Z.to_nat (last - first + 1) < fuel)%nat ->
    (forall k, 0 <= k < first -> lt (g a k) key = true) -> (forall k, last < k < len a -> lt key (g a k) = true) ->
    exists i, bin_loop lt fuel a key first last = Ok i /\
      ((0 <= i < len a /\ lt (g a i) key = false /\ lt key (g a i) = false) \/
       (i = len a /\ forall k, 0 <= k < len a -> lt (g a k) key = true \/ lt key (g a k) = true)).
  Proof.
    intros Hs. assert (up : forall p q, 0 <= p -> p <= q -> q < len a -> le (g a p) (g a q)).
    { intros p q H1 H2 H3. destruct (Z.eq_dec p q) as [->|]; [apply le_refl|]. apply Hs; lia. }
    induction fuel as [|f IH]; intros first last H1 H2 H3 Hf A B; [lia|]. cbn [bin_loop].
    destruct (Z.leb_spec first last) as [K|K].
    - set (m := Z.quot (first + last) 2). assert (Hm : first <= m <= last).
      { unfold m. rewrite Z.quot_div_nonneg by lia. split; [apply Z.div_le_lower_bound; lia|apply Z.div_le_upper_bound; lia]. }
      rewrite rd_ok by lia. cbn [obind]. destruct (lt (g a m) key) eqn:E1; [|destruct (lt key (g a m)) eqn:E2].
      + apply IH; try lia; [|exact B]. intros k Hk. destruct (lt (g a k) key) eqn:E; [reflexivity|].
        assert (le key (g a m)) as C; [|rewrite E1 in C; discriminate]. apply (le_trans _ (g a k)); [exact E|apply up; lia].
      + apply IH; try lia; [exact A|]. intros k Hk. destruct (lt key (g a k)) eqn:E; [reflexivity|].
        assert (le (g a m) key) as C; [|rewrite E2 in C; discriminate]. apply (le_trans _ (g a k)); [apply up; lia|exact E].
      + exists m. split; [reflexivity|]. left. split; [lia|]. split; [exact E1|exact E2].
    - exists (len a). split; [reflexivity|]. right. split; [reflexivity|]. intros k Hk.
      destruct (Z_lt_dec k first); [left; apply A; lia|right; apply B; lia].
  Qed.
End Sort.
