(** * Lemmas on derivatives along one coordinate *)
From Coq Require Import ZArith List Bool Reals Lra Lia Arith.
From Verif Require Import Num NumFacts Common ModelingModel KinModel.
Import ListNotations.
Local Open Scope R_scope.

(** d is the derivative at x of F along coordinate k *)
Definition partial (F : list R -> R) (x : list R) (k : nat) (d : R) : Prop :=
  derivable_pt_lim (fun t => F (upd x k t)) (nth k x 0) d.

Lemma upd_length (x : list R) k v : length (upd x k v) = length x.
Proof. revert k; induction x; intros [|k]; cbn; auto. Qed.
Lemma upd_nth (x : list R) k v i : (k < length x)%nat -> nth i (upd x k v) 0 = if (i =? k)%nat then v else nth i x 0.
Proof.
  revert k i; induction x as [|a x IH]; intros [|k] i Hk; cbn in *; try lia; destruct i; auto. cbn. rewrite IH by lia. reflexivity.
Qed.
Lemma upd_same (x : list R) k : upd x k (nth k x 0) = x.
Proof. revert k; induction x as [|a x IH]; intros [|k]; cbn; auto. f_equal. apply IH. Qed.
Lemma upd_upd (x : list R) k v w : upd (upd x k v) k w = upd x k w.
Proof. revert k; induction x as [|a x IH]; intros [|k]; cbn; auto. f_equal. apply IH. Qed.

Lemma d_ext f g x a : (forall t, f t = g t) -> derivable_pt_lim f x a -> derivable_pt_lim g x a.
Proof. intros E H eps He. destruct (H eps He) as (d & Hd). exists d. intros h. rewrite <- !E. apply Hd. Qed.
Lemma d_eq f x a b : a = b -> derivable_pt_lim f x a -> derivable_pt_lim f x b.
Proof. intros ->; auto. Qed.
Lemma d_const c x : derivable_pt_lim (fun _ => c) x 0.
Proof. apply derivable_pt_lim_const. Qed.
Lemma d_id x : derivable_pt_lim (fun t => t) x 1.
Proof. apply derivable_pt_lim_id. Qed.
Lemma d_plus f g x a b : derivable_pt_lim f x a -> derivable_pt_lim g x b -> derivable_pt_lim (fun t => f t + g t) x (a + b).
Proof. apply derivable_pt_lim_plus. Qed.
Lemma d_minus f g x a b : derivable_pt_lim f x a -> derivable_pt_lim g x b -> derivable_pt_lim (fun t => f t - g t) x (a - b).
Proof. apply derivable_pt_lim_minus. Qed.
Lemma d_opp f x a : derivable_pt_lim f x a -> derivable_pt_lim (fun t => - f t) x (- a).
Proof. apply derivable_pt_lim_opp. Qed.
Lemma d_mult f g x a b : derivable_pt_lim f x a -> derivable_pt_lim g x b -> derivable_pt_lim (fun t => f t * g t) x (a * g x + f x * b).
Proof. apply derivable_pt_lim_mult. Qed.
Lemma d_scal c f x a : derivable_pt_lim f x a -> derivable_pt_lim (fun t => c * f t) x (c * a).
Proof. apply derivable_pt_lim_scal. Qed.
Lemma d_div f g x a b : derivable_pt_lim f x a -> derivable_pt_lim g x b -> g x <> 0 ->
  derivable_pt_lim (fun t => f t / g t) x ((a * g x - b * f x) / (g x * g x)).
Proof. intros. apply (derivable_pt_lim_div f g); auto. Qed.
Lemma d_sum {A} (l : list A) (f : A -> R -> R) (d : A -> R) x :
  (forall a, In a l -> derivable_pt_lim (f a) x (d a)) -> derivable_pt_lim (fun t => Rsum (map (fun a => f a t) l)) x (Rsum (map d l)).
Proof.
  induction l as [|a l IH]; intros H; cbn [map Rsum]; [apply d_const|].
  apply d_plus; [apply H; left; auto|apply IH; intros; apply H; right; auto].
Qed.

(** Kronecker's delta *)
Definition delta (i k : nat) : R := if (i =? k)%nat then 1 else 0.
Lemma d_coord (x : list R) k i : (k < length x)%nat -> derivable_pt_lim (fun t => nth i (upd x k t) 0) (nth k x 0) (delta i k).
Proof.
  intros Hk. unfold delta. destruct (i =? k)%nat eqn:E.
  - eapply d_ext; [|apply d_id]. intros t. rewrite upd_nth, E by auto. reflexivity.
  - eapply d_ext; [|apply (d_const (nth i x 0))]. intros t. rewrite upd_nth, E by auto. reflexivity.
Qed.
Lemma coord_at (x : list R) k i : nth i (upd x k (nth k x 0)) 0 = nth i x 0.
Proof. rewrite upd_same. reflexivity. Qed.

(** ** Matrices given by their entries *)
Lemma rows_of_length r c (f : nat -> nat -> R) : length (rows_of r c f) = r.
Proof. unfold rows_of. rewrite map_length, seq_length. reflexivity. Qed.
Lemma nth_map_seq {A} (g : nat -> A) n i d : (i < n)%nat -> nth i (map g (seq 0 n)) d = g i.
Proof.
  intros H. rewrite (nth_indep _ d (g 0%nat)) by (rewrite map_length, seq_length; auto).
  rewrite (map_nth g), seq_nth by auto. reflexivity.
Qed.
Lemma rows_of_row r c (f : nat -> nat -> R) i : (i < r)%nat -> nth i (rows_of r c f) [] = map (f i) (seq 0 c).
Proof. intros. unfold rows_of. apply (nth_map_seq (fun i => map (f i) (seq 0 c))). auto. Qed.
Lemma rows_of_ent r c (f : nat -> nat -> R) i j : (i < r)%nat -> (j < c)%nat -> ent (rows_of r c f) i j = f i j.
Proof. intros. unfold ent, el. rewrite rows_of_row by auto. rewrite nth_map_seq by auto. reflexivity. Qed.
