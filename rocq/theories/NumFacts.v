(** Facts about the real instance of [Num] and a few tactics. *)
From Coq Require Import List ZArith QArith Reals Lra Lia Bool.
From Verif Require Import Num.
Import ListNotations.

Lemma Rltb_true a b : Rltb a b = true <-> (a < b)%R.
Proof. unfold Rltb; destruct (Rlt_dec a b); split; intros; try easy; lra. Qed.
Lemma Rltb_false a b : Rltb a b = false <-> (b <= a)%R.
Proof. unfold Rltb; destruct (Rlt_dec a b); split; intros; try easy; lra. Qed.
Lemma Rleb_true a b : Rleb a b = true <-> (a <= b)%R.
Proof. unfold Rleb; destruct (Rle_dec a b); split; intros; try easy; lra. Qed.
Lemma Rleb_false a b : Rleb a b = false <-> (b < a)%R.
Proof. unfold Rleb; destruct (Rle_dec a b); split; intros; try easy; lra. Qed.
Lemma Reqb_true a b : Reqb a b = true <-> a = b.
Proof. unfold Reqb; destruct (Req_EM_T a b); split; intros; try easy; lra. Qed.
Lemma Reqb_false a b : Reqb a b = false <-> a <> b.
Proof. unfold Reqb; destruct (Req_EM_T a b); split; intros; try easy; lra. Qed.

Lemma Rltb_spec a b : BoolSpec (a < b)%R (b <= a)%R (Rltb a b).
Proof. unfold Rltb; destruct (Rlt_dec a b); constructor; lra. Qed.
Lemma Rleb_spec a b : BoolSpec (a <= b)%R (b < a)%R (Rleb a b).
Proof. unfold Rleb; destruct (Rle_dec a b); constructor; lra. Qed.
Lemma Reqb_spec a b : BoolSpec (a = b) (a <> b) (Reqb a b).
Proof. unfold Reqb; destruct (Req_EM_T a b); constructor; auto. Qed.

#[export] Instance R_OrdLaws : OrdLaws R.
Proof.
  constructor; cbn; intros a b c; rewrite ?Rltb_true, ?Rltb_false; lra.
Qed.

(** Turn boolean comparisons on reals into propositions. *)
Ltac rcmp :=
  repeat match goal with
  | H : Rltb _ _ = true |- _ => apply Rltb_true in H
  | H : Rltb _ _ = false |- _ => apply Rltb_false in H
  | H : Rleb _ _ = true |- _ => apply Rleb_true in H
  | H : Rleb _ _ = false |- _ => apply Rleb_false in H
  | H : Reqb _ _ = true |- _ => apply Reqb_true in H
  | H : Reqb _ _ = false |- _ => apply Reqb_false in H
  | |- Rltb _ _ = true => apply Rltb_true
  | |- Rltb _ _ = false => apply Rltb_false
  | |- Rleb _ _ = true => apply Rleb_true
  | |- Rleb _ _ = false => apply Rleb_false
  | |- Reqb _ _ = true => apply Reqb_true
  | |- Reqb _ _ = false => apply Reqb_false
  end.

(** Case split on the first real comparison found in the goal. *)
Ltac rcase :=
  match goal with
  | |- context [Rltb ?a ?b] => destruct (Rltb_spec a b)
  | |- context [Rleb ?a ?b] => destruct (Rleb_spec a b)
  | |- context [Reqb ?a ?b] => destruct (Reqb_spec a b)
  end.

(** Unfold [Num] operations at the real instance. *)
(** decide a comparison of real constants *)
Ltac rdec :=
  match goal with
  | |- context [Rltb ?a ?b] =>
      first [replace (Rltb a b) with true by (symmetry; apply Rltb_true; lra)
            |replace (Rltb a b) with false by (symmetry; apply Rltb_false; lra)]
  | |- context [Rleb ?a ?b] =>
      first [replace (Rleb a b) with true by (symmetry; apply Rleb_true; lra)
            |replace (Rleb a b) with false by (symmetry; apply Rleb_false; lra)]
  end.
Ltac rnum := cbn [nzero none_ nadd nsub nmul ndiv nopp nabs nltb nleb neqb nofZ ndec R_Num] in *.

Lemma nmax_R (a b : R) : nmax a b = Rmax a b.
Proof.
  unfold nmax; rnum. destruct (Rltb_spec a b).
  - rewrite Rmax_right; lra.
  - rewrite Rmax_left; lra.
Qed.
Lemma nmin_R (a b : R) : nmin a b = Rmin a b.
Proof.
  unfold nmin; rnum. destruct (Rltb_spec b a).
  - rewrite Rmin_right; lra.
  - rewrite Rmin_left; lra.
Qed.
Lemma nisnan_R (a : R) : nisnan a = false.
Proof. unfold nisnan; rnum. destruct (Reqb_spec a a); easy. Qed.
Lemma nfmax_R (a b : R) : nfmax a b = Rmax a b.
Proof. unfold nfmax. rewrite !nisnan_R. apply nmax_R. Qed.
Lemma nfmin_R (a b : R) : nfmin a b = Rmin a b.
Proof. unfold nfmin. rewrite !nisnan_R. apply nmin_R. Qed.

Lemma nclamp_R_in (v lo hi : R) : (lo <= hi)%R -> (lo <= nclamp v lo hi <= hi)%R.
Proof. unfold nclamp; rnum; intros; repeat rcase; lra. Qed.

(** Largest entry: every entry is below a strict upper bound of [vmaxc]. *)
Lemma fold_nmax_bound {T} `{OrdLaws T} (l : list T) (x c : T) :
  nltb (fold_left nmax l x) c = true ->
  nltb x c = true /\ Forall (fun v => nltb v c = true) l.
Proof.
  revert x; induction l as [|y l IH]; intros x Hx; cbn in *.
  - auto.
  - apply IH in Hx as [Hm Hl]. unfold nmax in Hm.
    destruct (nltb x y) eqn:E.
    + split; [eapply nltb_trans; eauto|]. constructor; auto.
    + split; [exact Hm|]. constructor; [eapply nltb_neg_trans; eauto|auto].
Qed.

Lemma vmaxc_bound {T} `{OrdLaws T} (l : list T) (m c : T) :
  vmaxc l = Some m -> nltb m c = true -> Forall (fun v => nltb v c = true) l.
Proof.
  destruct l as [|x l]; cbn; intros E Hm; [discriminate|].
  injection E as <-. apply fold_nmax_bound in Hm as [? ?]. constructor; auto.
Qed.

(** Sums over the reals. *)
Fixpoint Rsum (l : list R) : R := match l with [] => 0%R | x :: r => (x + Rsum r)%R end.

Lemma fold_Rplus (l : list R) (a : R) : fold_left Rplus l a = (a + Rsum l)%R.
Proof. revert a; induction l as [|x l IH]; intros a; cbn; [ring|]. rewrite IH; ring. Qed.
Lemma vsum_R (l : list R) : vsum l = Rsum l.
Proof. unfold vsum; rnum. rewrite fold_Rplus. ring. Qed.
Lemma Rsum_app a b : Rsum (a ++ b) = (Rsum a + Rsum b)%R.
Proof. induction a as [|x a IH]; cbn; [ring|]. rewrite IH; ring. Qed.
Lemma Rsum_map_scale {A} (k : R) (f : A -> R) l :
  Rsum (map (fun x => k * f x)%R l) = (k * Rsum (map f l))%R.
Proof. induction l as [|x l IH]; cbn; [ring|]. rewrite IH; ring. Qed.
Lemma Rsum_map_add {A} (f g : A -> R) l :
  Rsum (map (fun x => f x + g x)%R l) = (Rsum (map f l) + Rsum (map g l))%R.
Proof. induction l as [|x l IH]; cbn; [ring|]. rewrite IH; ring. Qed.
Lemma Rsum_map_sub {A} (f g : A -> R) l :
  Rsum (map (fun x => f x - g x)%R l) = (Rsum (map f l) - Rsum (map g l))%R.
Proof. induction l as [|x l IH]; cbn; [ring|]. rewrite IH; ring. Qed.
Lemma Rsum_map_ext {A} (f g : A -> R) l :
  (forall x, In x l -> f x = g x) -> Rsum (map f l) = Rsum (map g l).
Proof.
  induction l as [|x l IH]; intros Hfg; cbn; [reflexivity|].
  rewrite (Hfg x) by (left; auto). rewrite IH; [reflexivity|]. intros; apply Hfg; right; auto.
Qed.
Lemma Rsum_le {A} (f g : A -> R) l :
  (forall x, In x l -> (f x <= g x)%R) -> (Rsum (map f l) <= Rsum (map g l))%R.
Proof.
  induction l as [|x l IH]; intros Hfg; cbn; [lra|].
  assert (f x <= g x)%R by (apply Hfg; left; auto).
  assert (Rsum (map f l) <= Rsum (map g l))%R by (apply IH; intros; apply Hfg; right; auto). lra.
Qed.
Lemma Rsum_nonneg l : Forall (fun x => (0 <= x)%R) l -> (0 <= Rsum l)%R.
Proof. induction 1; cbn; lra. Qed.
Lemma Rsum_repeat x n : Rsum (repeat x n) = (INR n * x)%R.
Proof.
  induction n as [|n IH]; [cbn; ring|].
  cbn [repeat Rsum]. rewrite IH, S_INR. ring.
Qed.

Lemma Qltb_lt (a b : Q) : @nltb Q Q_Num a b = true <-> (a < b)%Q.
Proof.
  cbn. rewrite Qlt_alt. destruct (a ?= b)%Q; split; intros Hx; congruence.
Qed.

#[export] Instance Q_OrdLaws : @OrdLaws Q Q_Num.
Proof.
  split; intros a b c.
  - rewrite !Qltb_lt. apply Qlt_trans.
  - intros E1 E2. rewrite Qltb_lt in *. eapply Qle_lt_trans; [|exact E2].
    apply Qnot_lt_le. intros Hx. apply Qltb_lt in Hx. congruence.
Qed.
