(** * Properties of BasicArray views (C55) *)
From Coq Require Import ZArith List Bool Lia Psatz.
From Verif Require Import Num Common ArrayModel.
Import ListNotations.
Local Open Scope Z_scope.

Section Facts.
  Context {A : Type}.
  Implicit Types a out : array A.

  (** what at(i, j) shows of an array: m rows, n columns and the cells [f] *)
  Definition cells (a : array A) (m n : Z) (f : Z -> Z -> A) : Prop :=
    r_rows a = m /\ r_cols a = n /\ Z.of_nat (length (r_data a)) = m * n /\
    0 <= m < 2 ^ 31 /\ 0 <= n < 2 ^ 31 /\
    forall i j, 0 <= i < m -> 0 <= j < n -> at_ a i j = Some (f i j).
  Definition is_int (z : Z) : Prop := - 2 ^ 31 <= z < 2 ^ 31.

  Lemma flat_eq a i j : flat a i j = size_t (i * r_cols a + j).
  Proof.
    unfold flat, size_t. rewrite <- Zplus_mod. rewrite <- (Zplus_mod_idemp_l (_ mod _ * _)), <- Zmult_mod, Zplus_mod_idemp_l. reflexivity.
  Qed.
  Lemma flat_nonneg a i j : is_int i -> is_int (r_cols a) -> is_int j -> 0 <= i * r_cols a + j -> flat a i j = i * r_cols a + j.
  Proof.
    intros Hi Hc Hj Hp. rewrite flat_eq. unfold size_t, is_int in *. apply Z.mod_small.
    assert (i * r_cols a <= 2 ^ 62) by nia. lia.
  Qed.
  Lemma flat_neg a i j : is_int i -> is_int (r_cols a) -> is_int j -> i * r_cols a + j < 0 -> 2 ^ 63 <= flat a i j.
  Proof.
    intros Hi Hc Hj Hp. rewrite flat_eq. unfold size_t, is_int in *.
    assert (- 2 ^ 62 <= i * r_cols a) by nia.
    rewrite <- (Z.mod_add _ 1) by lia. rewrite Z.mod_small by lia. lia.
  Qed.

  Lemma put_length (l : list A) k v : length (put l k v) = length l.
  Proof. revert k; induction l; intros [|k]; cbn; auto. Qed.
  Lemma put_nth (l : list A) k v i : (k < length l)%nat -> nth_error (put l k v) i = if (i =? k)%nat then Some v else nth_error l i.
  Proof.
    revert k i; induction l as [|x l IH]; intros [|k] i Hk; cbn in *; try lia.
    - destruct i; reflexivity.
    - destruct i; cbn; auto. apply IH; lia.
  Qed.

  Lemma for_app {X} (l1 l2 : list Z) (s : X) f :
    for_ (l1 ++ l2) s f = obnd (for_ l1 s f) (fun s => for_ l2 s f).
  Proof.
    unfold for_. rewrite fold_left_app. destruct (fold_left _ l1 (Some s)); cbn; auto.
    induction l2; cbn; auto.
  Qed.
  Lemma range_S from n : 0 <= n -> range from (n + 1) = range from n ++ [from + n].
  Proof.
    intros. unfold range. replace (Z.to_nat (n + 1)) with (S (Z.to_nat n)) by lia.
    rewrite seq_S, map_app; cbn. rewrite Z2Nat.id by lia. reflexivity.
  Qed.
  Lemma range_0 from n : n <= 0 -> range from n = [].
  Proof. intros. unfold range. replace (Z.to_nat n) with O by lia. reflexivity. Qed.
  Lemma for_inv {X} (P : Z -> X -> Prop) from n (s : X) f :
    0 <= n -> P 0 s -> (forall k s, 0 <= k < n -> P k s -> exists s', f s (from + k) = Some s' /\ P (k + 1) s') ->
    exists s', for_ (range from n) s f = Some s' /\ P n s'.
  Proof.
    intros Hn H0. pattern n. apply natlike_ind; [| |exact Hn]; clear n Hn.
    - intros. rewrite range_0 by lia. exists s; split; auto.
    - intros n Hn IH Hf. destruct IH as (s' & E & P').
      { intros k x Hk; apply Hf; lia. }
      destruct (Hf n s' ltac:(lia) P') as (s2 & E2 & P2).
      unfold Z.succ. rewrite range_S, for_app, E by lia. cbn. exists s2. rewrite <- E2. split; auto.
  Qed.
  Lemma range_split from n k : 0 <= k <= n -> range from n = range from k ++ range (from + k) (n - k).
  Proof.
    intros. unfold range. replace (Z.to_nat n) with (Z.to_nat k + Z.to_nat (n - k))%nat by lia.
    rewrite seq_app, map_app. f_equal. rewrite <- (map_map Z.of_nat (fun x => from + x)), <- (map_map Z.of_nat (fun x => from + k + x)).
    replace (map Z.of_nat (seq (0 + Z.to_nat k) (Z.to_nat (n - k)))) with (map (fun x => k + x) (map Z.of_nat (seq 0 (Z.to_nat (n - k))))).
    - rewrite !map_map. apply map_ext; intros; lia.
    - generalize (Z.to_nat (n - k)) as c. intros c. rewrite map_map. replace (0 + Z.to_nat k)%nat with (Z.to_nat k) by lia.
      assert (G : forall b, map (fun x => k + Z.of_nat x) (seq b c) = map Z.of_nat (seq (Z.to_nat k + b) c)).
      { induction c; intros b; cbn; auto. f_equal. { lia. } rewrite IHc. f_equal. f_equal. lia. }
      rewrite G. f_equal. f_equal. lia.
  Qed.
  Lemma for_throw {X} (P : Z -> X -> Prop) from n k0 (s : X) f :
    0 <= k0 < n -> P 0 s -> (forall k s, 0 <= k < k0 -> P k s -> exists s', f s (from + k) = Some s' /\ P (k + 1) s') ->
    (forall s, P k0 s -> f s (from + k0) = None) -> for_ (range from n) s f = None.
  Proof.
    intros Hk H0 Hf Hn. destruct (for_inv P from k0 s f ltac:(lia) H0 Hf) as (s' & E & P').
    rewrite (range_split from n k0) by lia. rewrite for_app, E. cbn [obnd].
    rewrite (range_split (from + k0) (n - k0) 1) by lia.
    rewrite for_app. replace 1 with (0 + 1) at 1 by lia. rewrite range_S, range_0 by lia. cbn. rewrite Z.add_0_r, Hn; auto.
  Qed.

  Lemma collect_spec l (f : Z -> option A) (g : Z -> A) : (forall i, In i l -> f i = Some (g i)) -> collect l f = Some (map g l).
  Proof.
    intros Hf. unfold collect.
    assert (G : forall done, for_ l done (fun o i => obnd (f i) (fun v => Some (o ++ [v]))) = Some (done ++ map g l)).
    { induction l as [|x l IH]; intros done; cbn.
      - rewrite app_nil_r. reflexivity.
      - rewrite Hf by (left; auto). cbn. unfold for_ in IH. rewrite IH by (intros; apply Hf; right; auto).
        rewrite <- app_assoc. reflexivity. }
    apply G.
  Qed.
  Lemma in_range from n i : In i (range from n) <-> from <= i < from + n.
  Proof.
    unfold range. rewrite in_map_iff. split.
    - intros (k & <- & Hk). apply in_seq in Hk. lia.
    - intros. exists (Z.to_nat (i - from)). rewrite in_seq. lia.
  Qed.

  (** an array whose storage has the size its dimensions call for *)
  Definition shaped (a : array A) (m n : Z) : Prop :=
    r_rows a = m /\ r_cols a = n /\ Z.of_nat (length (r_data a)) = m * n /\ 0 <= m < 2 ^ 31 /\ 0 <= n < 2 ^ 31.
  Lemma int_of z : 0 <= z < 2 ^ 31 -> is_int z.
  Proof. unfold is_int; lia. Qed.
  Lemma resize_empty d m n : 0 <= m < 2 ^ 31 -> 0 <= n < 2 ^ 31 -> exists out, resize d empty m n = Some out /\ shaped out m n.
  Proof.
    intros Hm Hn. unfold resize, size_t. rewrite <- Zmult_mod. rewrite Z.mod_small by nia.
    unfold vresize. destruct (Z.leb_spec (2 ^ 62) (m * n)); [nia|].
    eexists. split; [reflexivity|]. unfold shaped. cbn [r_rows r_cols r_data]. repeat split; try lia.
    rewrite app_length, repeat_length. cbn [empty r_data]. rewrite firstn_nil. cbn [length]. rewrite Nat.sub_0_r, Nat.add_0_l. apply Z2Nat.id. nia.
  Qed.
  Lemma set_at_in out m n i j v : shaped out m n -> 0 <= i < m -> 0 <= j < n ->
    exists out', set_at out i j v = Some out' /\ shaped out' m n /\
      forall i' j', 0 <= i' < m -> 0 <= j' < n -> at_ out' i' j' = if ((i' =? i) && (j' =? j))%bool then Some v else at_ out i' j'.
  Proof.
    intros (Hr & Hc & Hl & Hm & Hn) Hi Hj. unfold set_at.
    rewrite flat_nonneg by (rewrite ?Hc; try apply int_of; nia). rewrite Hc, Hl.
    destruct (Z.ltb_spec (i * n + j) (m * n)); [|nia].
    eexists. split; [reflexivity|]. split.
    { unfold shaped. cbn [r_rows r_cols r_data]. rewrite put_length. auto. }
    intros i' j' Hi' Hj'. unfold at_.
    rewrite !flat_nonneg by (cbn [r_cols]; rewrite ?Hc; try apply int_of; nia). cbn [r_cols r_data]. rewrite put_length, Hc, Hl.
    destruct (Z.ltb_spec (i' * n + j') (m * n)); [|nia].
    rewrite put_nth by nia.
    destruct (Z.eqb_spec i' i), (Z.eqb_spec j' j); cbn [andb].
    - subst. rewrite Nat.eqb_refl. reflexivity.
    - destruct (Nat.eqb_spec (Z.to_nat (i' * n + j')) (Z.to_nat (i * n + j))); [nia|reflexivity].
    - destruct (Nat.eqb_spec (Z.to_nat (i' * n + j')) (Z.to_nat (i * n + j))) as [E|]; [|reflexivity].
      apply Z2Nat.inj in E; nia.
    - destruct (Nat.eqb_spec (Z.to_nat (i' * n + j')) (Z.to_nat (i * n + j))) as [E|]; [|reflexivity].
      apply Z2Nat.inj in E; nia.
  Qed.
  Lemma set_at_out out m n i j v : shaped out m n -> is_int i -> is_int j -> i * n + j < 0 \/ m * n <= i * n + j -> set_at out i j v = None.
  Proof.
    intros (Hr & Hc & Hl & Hm & Hn) Hi Hj H. unfold set_at. destruct H as [H|H].
    - assert (F := flat_neg out i j Hi ltac:(rewrite Hc; apply int_of; lia) Hj ltac:(rewrite Hc; lia)). rewrite Hl.
      destruct (Z.ltb_spec (flat out i j) (m * n)); [nia|reflexivity].
    - rewrite flat_nonneg by (rewrite ?Hc; auto; try (apply int_of; lia); nia). rewrite Hc, Hl.
      destruct (Z.ltb_spec (i * n + j) (m * n)); [nia|reflexivity].
  Qed.

  (** the double loop shared by block and middleRows *)
  Lemma fill_spec out m n (g : Z -> Z -> option A) (h : Z -> Z -> A) : shaped out m n ->
    (forall i j, 0 <= i < m -> 0 <= j < n -> g i j = Some (h i j)) ->
    exists out', for_ (range 0 m) out (fun out i => for_ (range 0 n) out (fun out j => obnd (g i j) (fun v => set_at out i j v))) = Some out'
      /\ cells out' m n h.
  Proof.
    intros Hs Hg.
    destruct (for_inv (fun k out => shaped out m n /\ forall i j, 0 <= i < k -> 0 <= j < n -> at_ out i j = Some (h i j)) 0 m out
      (fun out i => for_ (range 0 n) out (fun out j => obnd (g i j) (fun v => set_at out i j v)))) as (o & E & So & Co).
    - unfold shaped in Hs; lia.
    - split; auto. intros; lia.
    - intros i o Hi (So & Co). rewrite Z.add_0_l.
      destruct (for_inv (fun k out => shaped out m n /\ (forall i' j, 0 <= i' < i -> 0 <= j < n -> at_ out i' j = Some (h i' j))
                          /\ forall j, 0 <= j < k -> at_ out i j = Some (h i j)) 0 n o
        (fun out j => obnd (g i j) (fun v => set_at out i j v))) as (o2 & E2 & S2 & C2 & D2).
      + unfold shaped in Hs; lia.
      + split; [auto|]. split; [auto|]. intros; lia.
      + intros j o2 Hj (S2 & C2 & D2). rewrite Z.add_0_l, Hg by lia. cbn [obnd].
        destruct (set_at_in o2 m n i j (h i j) S2 Hi Hj) as (o3 & E3 & S3 & C3).
        exists o3. split; [auto|]. split; [auto|]. split.
        * intros i' j' Hi' Hj'. rewrite C3 by lia. destruct (Z.eqb_spec i' i); [lia|]. cbn. apply C2; lia.
        * intros j' Hj'. rewrite C3 by lia. rewrite Z.eqb_refl. destruct (Z.eqb_spec j' j); [subst; reflexivity|]. cbn. apply D2; lia.
      + exists o2. split; [auto|]. split; [auto|]. intros i' j' Hi' Hj'.
        destruct (Z.eq_dec i' i); [subst; apply D2; lia|apply C2; lia].
    - exists o. split; auto. unfold cells. destruct So as (? & ? & ? & ? & ?). repeat (split; [assumption|]). exact Co.
  Qed.
End Facts.

(** C55: at(i, j) of an array built from row-major data is entry i*n+j *)
Theorem C55_at {A} (d : list A) (m n i j : Z) (dflt : A) :
  0 <= m < 2 ^ 31 -> 0 <= n < 2 ^ 31 -> Z.of_nat (length d) = m * n -> 0 <= i < m -> 0 <= j < n ->
  at_ (of_data m n d) i j = Some (nth (Z.to_nat (i * n + j)) d dflt).
Proof.
  intros Hm Hn Hl Hi Hj. unfold at_.
  rewrite flat_nonneg by (cbn [r_cols of_data]; try apply int_of; nia). cbn [r_cols r_data of_data]. rewrite Hl.
  destruct (Z.ltb_spec (i * n + j) (m * n)); [|nia]. apply nth_error_nth'. nia.
Qed.
Print Assumptions C55_at.

(** at throws exactly when the flat index falls outside: rows are checked, columns are not *)
Theorem C55_at_throws {A} (a : array A) (m n i j : Z) (f : Z -> Z -> A) :
  cells a m n f -> is_int i -> is_int j -> (at_ a i j = None <-> i * n + j < 0 \/ m * n <= i * n + j).
Proof.
  intros (Hr & Hc & Hl & Hm & Hn & _) Hi Hj. unfold at_. rewrite Hl.
  destruct (Z.ltb_spec (i * n + j) 0).
  - assert (F := flat_neg a i j Hi ltac:(rewrite Hc; apply int_of; lia) Hj ltac:(rewrite Hc; lia)).
    destruct (Z.ltb_spec (flat a i j) (m * n)); [nia|]. split; auto.
  - rewrite flat_nonneg by (rewrite ?Hc; auto; try (apply int_of; lia); nia). rewrite Hc.
    destruct (Z.ltb_spec (i * n + j) (m * n)) as [L|L].
    + split; [|lia]. intros E. apply nth_error_None in E. lia.
    + split; auto.
Qed.
Print Assumptions C55_at_throws.

(** a column index past the last column silently reads the next row *)
Theorem C55_column_refuted : exists (d : list Z), at_ (of_data 2 2 d) 0 2 = at_ (of_data 2 2 d) 1 0 /\ at_ (of_data 2 2 d) 0 2 <> None.
Proof. exists [1; 2; 3; 4]. vm_compute. split; [reflexivity|discriminate]. Qed.
Print Assumptions C55_column_refuted.

(** block(startRow, startCol, nRow, nCol) *)
Theorem C55_block {A} (dflt : A) (a : array A) (m n : Z) (f : Z -> Z -> A) (sr sc nr nc : Z) :
  cells a m n f -> 0 <= sr -> 0 <= sc -> 0 <= nr -> 0 <= nc -> sr + nr <= m -> sc + nc <= n ->
  exists out, block dflt a sr sc nr nc = Some out /\ cells out nr nc (fun i j => f (sr + i) (sc + j)).
Proof.
  intros (Hr & Hc & Hl & Hm & Hn & Hf) Hsr Hsc Hnr Hnc H1 H2. unfold block.
  destruct (resize_empty dflt nr nc) as (o & E & So); [lia|lia|]. rewrite E. cbn [obnd].
  apply fill_spec; auto. intros i j Hi Hj. rewrite Hf by lia. f_equal. f_equal; lia.
Qed.
Print Assumptions C55_block.

(** row(i), col(j), rblock and cblock *)
Theorem C55_vectors {A} (a : array A) (m n : Z) (f : Z -> Z -> A) :
  cells a m n f ->
  (forall i, 0 <= i < m -> exists v, row a i = Some v /\ Z.of_nat (length v) = n /\ forall j d, 0 <= j < n -> nth (Z.to_nat j) v d = f i j) /\
  (forall j, 0 <= j < n -> exists v, col a j = Some v /\ Z.of_nat (length v) = m /\ forall i d, 0 <= i < m -> nth (Z.to_nat i) v d = f i j) /\
  (forall i sc k, 0 <= i < m -> 0 <= sc -> 0 <= k -> sc + k <= n ->
     exists v, rblock a i sc k = Some v /\ Z.of_nat (length v) = k /\ forall j d, 0 <= j < k -> nth (Z.to_nat j) v d = f i (sc + j)) /\
  (forall j sr k, 0 <= j < n -> 0 <= sr -> 0 <= k -> sr + k <= m ->
     exists v, cblock a sr j k = Some v /\ Z.of_nat (length v) = k /\ forall i d, 0 <= i < k -> nth (Z.to_nat i) v d = f (sr + i) j).
Proof.
  intros (Hr & Hc & Hl & Hm & Hn & Hf).
  assert (L : forall k (g : Z -> A), 0 <= k -> Z.of_nat (length (map g (range 0 k))) = k).
  { intros k g Hk. unfold range. rewrite !map_length, seq_length. lia. }
  assert (N : forall k (g : Z -> A) j d, 0 <= j < k -> nth (Z.to_nat j) (map g (range 0 k)) d = g j).
  { intros k g j d Hj. unfold range. rewrite map_map.
    rewrite (nth_indep _ d (g (0 + Z.of_nat 0))) by (rewrite map_length, seq_length; lia).
    rewrite (map_nth (fun x => g (0 + Z.of_nat x))). rewrite seq_nth by lia. f_equal. lia. }
  unfold row, col, rblock, cblock. rewrite Hr, Hc. split; [|split; [|split]].
  - intros i Hi. exists (map (f i) (range 0 n)). split.
    + apply collect_spec. intros j Hj. apply in_range in Hj. apply Hf; lia.
    + split; [apply L; lia|]. intros; apply N; auto.
  - intros j Hj. exists (map (fun i => f i j) (range 0 m)). split.
    + apply collect_spec. intros i Hi. apply in_range in Hi. apply Hf; lia.
    + split; [apply L; lia|]. intros; apply (N m (fun i => f i j)); auto.
  - intros i sc k Hi Hsc Hk Hb. destruct (Z.ltb_spec k 0); [lia|]. exists (map (fun j => f i (sc + j)) (range 0 k)). split.
    + apply collect_spec. intros j Hj. apply in_range in Hj. rewrite Hf by lia. f_equal. f_equal; lia.
    + split; [apply L; lia|]. intros; apply (N k (fun j => f i (sc + j))); auto.
  - intros j sr k Hj Hsr Hk Hb. destruct (Z.ltb_spec k 0); [lia|]. exists (map (fun i => f (sr + i) j) (range 0 k)). split.
    + apply collect_spec. intros i Hi. apply in_range in Hi. rewrite Hf by lia. f_equal. f_equal; lia.
    + split; [apply L; lia|]. intros; apply (N k (fun i => f (sr + i) j)); auto.
Qed.
Print Assumptions C55_vectors.

(** topRows *)
Theorem C55_top_rows {A} (dflt : A) (a : array A) (m n : Z) (f : Z -> Z -> A) (k : Z) :
  cells a m n f -> 0 <= k <= m -> exists out, topRows dflt a k = Some out /\ cells out k n f.
Proof.
  intros (Hr & Hc & Hl & Hm & Hn & Hf) Hk. unfold topRows, middleRows. rewrite Hc.
  destruct (resize_empty dflt k n) as (o & E & So); [lia|lia|]. rewrite E. cbn [obnd].
  apply fill_spec; auto. intros i j Hi Hj. apply Hf; lia.
Qed.
Print Assumptions C55_top_rows.

(** middleRows is right only from row 0; from any other row it throws, whatever is asked for *)
Theorem C55_middle_rows_partial {A} (dflt : A) (a : array A) (m n : Z) (f : Z -> Z -> A) (start k : Z) :
  cells a m n f -> 0 <= start -> 0 < k -> start + k <= m -> 0 < n ->
  (start = 0 -> exists out, middleRows dflt a start k = Some out /\ cells out k n (fun i j => f (start + i) j)) /\
  (start <> 0 -> middleRows dflt a start k = None).
Proof.
  intros C Hs Hk Hb Hn0. split.
  - intros ->. apply (C55_top_rows dflt a m n f k C). lia.
  - intros Hs0. destruct C as (Hr & Hc & Hl & Hm & Hn & Hf). unfold middleRows. rewrite Hc.
    destruct (resize_empty dflt k n) as (o & E & So); [lia|lia|]. rewrite E. cbn [obnd].
    apply (for_throw (fun _ out => shaped out k n) start k (Z.max 0 (k - start))).
    + lia.
    + exact So.
    + intros i s Hi Ss.
      destruct (for_inv (fun _ out => shaped out k n) 0 n s (fun out j => obnd (at_ a (start + i) j) (fun v => set_at out (start + i) j v)))
        as (s2 & E2 & S2); [lia|auto| |eauto].
      intros j s1 Hj S1. rewrite Z.add_0_l, Hf by lia. cbn [obnd].
      destruct (set_at_in s1 k n (start + i) j (f (start + i) j) S1) as (s3 & E3 & S3 & _); [lia|lia|eauto].
    + intros s Ss. apply (for_throw (fun _ out => shaped out k n) 0 n 0); [lia|auto|intros; lia|].
      intros s1 S1. rewrite Hf by lia. cbn [obnd].
      apply (set_at_out s1 k n); [auto|apply int_of; lia|apply int_of; lia|right; nia].
Qed.
Print Assumptions C55_middle_rows_partial.

(** bottomRows of fewer rows than there are throws *)
Theorem C55_bottom_rows_throws {A} (dflt : A) (a : array A) (m n : Z) (f : Z -> Z -> A) (k : Z) :
  cells a m n f -> 0 < k < m -> 0 < n -> bottomRows dflt a k = None.
Proof.
  intros C Hk Hn. unfold bottomRows. rewrite (proj1 C).
  apply (C55_middle_rows_partial dflt a m n f (m - k) k C); lia.
Qed.
Print Assumptions C55_bottom_rows_throws.

Definition ex_arr : array Z := of_data 3 2 [1; 2; 3; 4; 5; 6].
Lemma ex_cells : cells ex_arr 3 2 (fun i j => 1 + 2 * i + j).
Proof.
  unfold cells. split; [reflexivity|]. split; [reflexivity|]. split; [reflexivity|]. split; [lia|]. split; [lia|].
  intros i j Hi Hj. assert (i = 0 \/ i = 1 \/ i = 2) as [-> | [-> | ->]] by lia; assert (j = 0 \/ j = 1) as [-> | ->] by lia; reflexivity.
Qed.
Theorem C55_middle_rows_refuted : exists a start k, cells a 3 2 (fun i j => 1 + 2 * i + j) /\ 0 <= start /\ start + k <= 3 /\ middleRows 0 a start k = None.
Proof. exists ex_arr, 1, 2. split; [exact ex_cells|]. split; [lia|]. split; [lia|]. vm_compute. reflexivity. Qed.
Print Assumptions C55_middle_rows_refuted.
Theorem C55_bottom_rows_refuted : exists a k, cells a 3 2 (fun i j => 1 + 2 * i + j) /\ 0 <= k <= 3 /\ bottomRows 0 a k = None.
Proof. exists ex_arr, 2. split; [exact ex_cells|]. split; [lia|]. vm_compute. reflexivity. Qed.
Print Assumptions C55_bottom_rows_refuted.
Example C55_ex :
  block 0 ex_arr 1 1 2 1 = Some (of_data 2 1 [4; 6]) /\ row ex_arr 2 = Some [5; 6] /\ col ex_arr 1 = Some [2; 4; 6] /\
  topRows 0 ex_arr 2 = Some (of_data 2 2 [1; 2; 3; 4]) /\ rblock ex_arr 1 1 1 = Some [4] /\ cblock ex_arr 1 0 2 = Some [3; 5] /\ at_ ex_arr (-1) 2 = Some 1.
Proof. vm_compute. repeat split. Qed.
