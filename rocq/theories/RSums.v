(** * Finite sums of reals and list facts used by the proofs *)
From Coq Require Import List ZArith Bool Lia Reals Lra Permutation.
From Verif Require Import NumFacts.
Import ListNotations.
Local Open Scope R_scope.

(** ** Sums *)
Definition rsum {A} (f : A -> R) (l : list A) : R := Rsum (map f l).
Arguments rsum : simpl never.

Lemma rsum_nil {A} (f : A -> R) : rsum f [] = 0.
Proof. reflexivity. Qed.
Lemma rsum_cons {A} (f : A -> R) a l : rsum f (a :: l) = f a + rsum f l.
Proof. reflexivity. Qed.
Lemma Rsum_app a b : Rsum (a ++ b) = Rsum a + Rsum b.
Proof. induction a as [|x a IH]; cbn; [ring|]. rewrite IH. ring. Qed.
Lemma rsum_app {A} (f : A -> R) a b : rsum f (a ++ b) = rsum f a + rsum f b.
Proof. unfold rsum. rewrite map_app. apply Rsum_app. Qed.
Lemma rsum_ext {A} (f g : A -> R) l : (forall a, In a l -> f a = g a) -> rsum f l = rsum g l.
Proof.
  induction l as [|a l IH]; intros H; [reflexivity|]. rewrite !rsum_cons, H, IH; cbn; auto.
  intros b Hb. apply H. right. exact Hb.
Qed.
Lemma rsum_scal {A} (f : A -> R) k l : rsum (fun a => k * f a) l = k * rsum f l.
Proof. induction l as [|a l IH]; [cbn; unfold rsum; cbn; ring|]. rewrite !rsum_cons, IH. ring. Qed.
Lemma rsum_scal_r {A} (f : A -> R) k l : rsum (fun a => f a * k) l = rsum f l * k.
Proof. induction l as [|a l IH]; [unfold rsum; cbn; ring|]. rewrite !rsum_cons, IH. ring. Qed.
Lemma rsum_plus {A} (f g : A -> R) l : rsum (fun a => f a + g a) l = rsum f l + rsum g l.
Proof. induction l as [|a l IH]; [unfold rsum; cbn; ring|]. rewrite !rsum_cons, IH. ring. Qed.
Lemma rsum_map {A B} (f : B -> R) (g : A -> B) l : rsum f (map g l) = rsum (fun a => f (g a)) l.
Proof. unfold rsum. rewrite map_map. reflexivity. Qed.
Lemma rsum_zero {A} (l : list A) : rsum (fun _ => 0) l = 0.
Proof. induction l as [|a l IH]; [reflexivity|]. rewrite rsum_cons, IH. ring. Qed.
Lemma rsum_flat_map {A B} (f : B -> R) (g : A -> list B) l : rsum f (flat_map g l) = rsum (fun a => rsum f (g a)) l.
Proof. induction l as [|a l IH]; [reflexivity|]. cbn [flat_map]. rewrite rsum_app, rsum_cons, IH. reflexivity. Qed.

Lemma fold_rsum {A} (f : A -> R) l z : fold_left (fun out a => out + f a) l z = z + rsum f l.
Proof. revert z; induction l as [|a l IH]; intros z; cbn [fold_left]; [unfold rsum; cbn; ring|]. rewrite IH, rsum_cons. ring. Qed.

Lemma combine_app {A B} (a a' : list A) (b b' : list B) : length a = length b ->
  combine (a ++ a') (b ++ b') = combine a b ++ combine a' b'.
Proof. revert b; induction a as [|x a IH]; intros [|y b] H; cbn in *; try discriminate; auto. f_equal. auto. Qed.
Lemma combine_map_l {A B C} (f : A -> C) (a : list A) (b : list B) :
  combine (map f a) b = map (fun p => (f (fst p), snd p)) (combine a b).
Proof. revert b; induction a as [|x a IH]; intros [|y b]; cbn; auto. f_equal. auto. Qed.
Lemma combine_map_r {A B C} (f : B -> C) (a : list A) (b : list B) :
  combine a (map f b) = map (fun p => (fst p, f (snd p))) (combine a b).
Proof. revert b; induction a as [|x a IH]; intros [|y b]; cbn; auto. f_equal. auto. Qed.

Lemma combine_split_eq {A B} (a : list A) (b : list B) : length a = length b ->
  map fst (combine a b) = a /\ map snd (combine a b) = b.
Proof.
  revert b; induction a as [|x a IH]; intros [|y b] H; cbn in *; try discriminate; auto.
  destruct (IH b) as [H1 H2]; [lia|]. rewrite H1, H2. auto.
Qed.

Lemma combine_fst_snd {A B} (L : list (A * B)) : combine (map fst L) (map snd L) = L.
Proof. induction L as [|[c v] L IH]; cbn; auto. f_equal. exact IH. Qed.

Lemma filter_rsum {A} (p : A -> bool) (f : A -> R) l :
  rsum f l = rsum f (filter p l) + rsum f (filter (fun a => negb (p a)) l).
Proof.
  induction l as [|a l IH]; [unfold rsum; cbn; ring|]. cbn [filter].
  destruct (p a); cbn [negb]; rewrite !rsum_cons, IH; ring.
Qed.

Lemma flat_map_length_const {A B} (g : A -> list B) k l : (forall a, length (g a) = k) -> length (flat_map g l) = (length l * k)%nat.
Proof. intros H. induction l as [|a l IH]; [reflexivity|]. cbn. rewrite app_length, H, IH. reflexivity. Qed.

Lemma filter_ext_in' {A} (f g : A -> bool) l : (forall a, f a = g a) -> filter f l = filter g l.
Proof. intros H. induction l as [|a l IH]; cbn; [reflexivity|]. rewrite H, IH. reflexivity. Qed.


Lemma rsum_perm {A} (f : A -> R) l l' : Permutation l l' -> rsum f l = rsum f l'.
Proof.
  induction 1; rewrite ?rsum_cons; auto; try lra.
Qed.
Lemma rsum_nonneg {A} (f : A -> R) l : (forall a, In a l -> 0 <= f a) -> 0 <= rsum f l.
Proof.
  induction l as [|a l IH]; intros H; [unfold rsum; cbn; lra|]. rewrite rsum_cons.
  pose proof (H a (or_introl eq_refl)). pose proof (IH (fun b Hb => H b (or_intror Hb))). lra.
Qed.
Lemma rsum_le {A} (f g : A -> R) l : (forall a, In a l -> f a <= g a) -> rsum f l <= rsum g l.
Proof.
  induction l as [|a l IH]; intros H; [unfold rsum; cbn; lra|]. rewrite !rsum_cons.
  pose proof (H a (or_introl eq_refl)). pose proof (IH (fun b Hb => H b (or_intror Hb))). lra.
Qed.
Lemma rsum_eq0 {A} (f : A -> R) l : (forall a, In a l -> 0 <= f a) -> rsum f l = 0 -> forall a, In a l -> f a = 0.
Proof.
  induction l as [|a l IH]; intros H E b []; rewrite rsum_cons in E;
    pose proof (H a (or_introl eq_refl)); pose proof (rsum_nonneg f l (fun b Hb => H b (or_intror Hb))).
  - subst; lra.
  - apply IH; auto; [intros; apply H; right; auto|lra].
Qed.

(** sums over 0 .. n-1 *)
Definition bigsum (n : nat) (f : nat -> R) : R := rsum f (seq 0 n).
Lemma bigsum_ext n f g : (forall i, (i < n)%nat -> f i = g i) -> bigsum n f = bigsum n g.
Proof. intros H. apply rsum_ext. intros i Hi. apply in_seq in Hi. apply H. lia. Qed.
Lemma bigsum_S n f : bigsum (S n) f = bigsum n f + f n.
Proof. unfold bigsum. rewrite seq_S, rsum_app, rsum_cons, rsum_nil. cbn. ring. Qed.
Lemma bigsum_0 f : bigsum 0 f = 0.
Proof. reflexivity. Qed.
Lemma bigsum_scal n f k : bigsum n (fun i => k * f i) = k * bigsum n f.
Proof. apply rsum_scal. Qed.
Lemma bigsum_plus n f g : bigsum n (fun i => f i + g i) = bigsum n f + bigsum n g.
Proof. apply rsum_plus. Qed.
Lemma bigsum_zero n : bigsum n (fun _ => 0) = 0.
Proof. apply rsum_zero. Qed.
Lemma bigsum_single n f k : (k < n)%nat -> (forall i, (i < n)%nat -> i <> k -> f i = 0) -> bigsum n f = f k.
Proof.
  induction n as [|n IH]; intros Hk H; [lia|]. rewrite bigsum_S.
  destruct (Nat.eq_dec k n) as [->|Hn].
  - rewrite (bigsum_ext n f (fun _ => 0)) by (intros i Hi; apply H; lia). rewrite bigsum_zero. ring.
  - rewrite IH by (lia || (intros; apply H; lia)). rewrite (H n) by lia. ring.
Qed.

(** entries stored as an association list, duplicates adding up *)
Definition assoc_sum (i : nat) (l : list (nat * R)) : R :=
  rsum (fun p => if Nat.eqb (fst p) i then snd p else 0) l.
Lemma bigsum_assoc n (l : list (nat * R)) (f : nat -> R) :
  Forall (fun p => (fst p < n)%nat) l ->
  bigsum n (fun i => assoc_sum i l * f i) = rsum (fun p => snd p * f (fst p)) l.
Proof.
  induction l as [|p l IH]; intros H.
  - rewrite rsum_nil. rewrite (bigsum_ext _ _ (fun _ => 0)); [apply bigsum_zero|].
    intros i _. unfold assoc_sum. rewrite rsum_nil. ring.
  - inversion H as [|? ? Hp Hl]; subst. rewrite rsum_cons, <- IH by exact Hl.
    rewrite (bigsum_ext _ _ (fun i => (if Nat.eqb (fst p) i then snd p else 0) * f i + assoc_sum i l * f i)).
    2: { intros i _. unfold assoc_sum. rewrite rsum_cons. ring. }
    rewrite bigsum_plus. f_equal.
    rewrite (bigsum_single n _ (fst p) Hp).
    + rewrite Nat.eqb_refl. reflexivity.
    + intros i _ Hi. destruct (Nat.eqb_spec (fst p) i); [congruence|ring].
Qed.
