(** Proofs about function costs with a full Hessian. *)
From Coq Require Import List ZArith Bool Arith Lia Reals Lra.
From Verif Require Import Num NumFacts RSums Common ScoExprModel ScoExprProofs ModelingModel ModelingSpec ModelingProofs HessModel HessSpec.
Import ListNotations.
Local Open Scope R_scope.

(** ** Sums *)
Lemma nth_map_seq (F : nat -> R) n i : (i < n)%nat -> nth i (map F (seq 0 n)) 0 = F i.
Proof.
  intros Hi. rewrite (nth_indep _ 0 (F 0%nat)) by (rewrite map_length, seq_length; exact Hi).
  rewrite map_nth, seq_nth by exact Hi. reflexivity.
Qed.
Lemma at2_tab n (F : nat -> nat -> R) i j : (i < n)%nat -> (j < n)%nat -> at2 (tab n F) i j = F i j.
Proof.
  intros Hi Hj. unfold at2, tab.
  rewrite (nth_indep _ [] (map (F 0%nat) (seq 0 n))) by (rewrite map_length, seq_length; exact Hi).
  rewrite (map_nth (fun i => map (F i) (seq 0 n))), seq_nth by exact Hi. cbn [Nat.add].
  change (nzero (T := R)) with 0. now apply nth_map_seq.
Qed.
Lemma bigsum_swap n m (F : nat -> nat -> R) : bigsum n (fun i => bigsum m (F i)) = bigsum m (fun j => bigsum n (fun i => F i j)).
Proof.
  induction n as [|n IH]; [rewrite bigsum_0; symmetry; apply bigsum_zero|].
  rewrite bigsum_S, IH, <- bigsum_plus. apply bigsum_ext. intros j _. now rewrite bigsum_S.
Qed.
Lemma rsum_nth {A} (f : A -> R) (d : A) l : rsum f l = bigsum (length l) (fun i => f (nth i l d)).
Proof.
  unfold bigsum. induction l as [|a l IH]; [reflexivity|].
  cbn [length seq]. rewrite !rsum_cons. cbn [nth]. rewrite IH, <- seq_shift, rsum_map. reflexivity.
Qed.
Lemma vdot_bigsum (a b : list R) n : length a = n -> length b = n -> vdot a b = dot n (fun i => nth i a 0) (fun i => nth i b 0).
Proof.
  intros Ha Hb. rewrite vdot_rsum, (rsum_nth _ (0, 0)), combine_length, Ha, Hb, Nat.min_id. unfold dot.
  apply bigsum_ext. intros i Hi. rewrite combine_nth by congruence. reflexivity.
Qed.

(** ** Bilinear forms *)
Definition bil (n : nat) (A : nat -> nat -> R) (a b : nat -> R) : R := bigsum n (fun i => bigsum n (fun j => A i j * a i * b j)).
Lemma bil_sym n A a b : symmetric n A -> bil n A a b = bil n A b a.
Proof.
  intros Hs. unfold bil. rewrite bigsum_swap. apply bigsum_ext. intros i Hi. apply bigsum_ext. intros j Hj.
  rewrite (Hs j i Hj Hi). ring.
Qed.
Lemma bil_lin_l n A a a' b k : bil n A (fun i => a i + k * a' i) b = bil n A a b + k * bil n A a' b.
Proof.
  unfold bil. rewrite <- bigsum_scal, <- bigsum_plus. apply bigsum_ext. intros i Hi.
  rewrite <- bigsum_scal, <- bigsum_plus. apply bigsum_ext. intros j Hj. ring.
Qed.
Lemma bil_lin_r n A a b b' k : bil n A a (fun i => b i + k * b' i) = bil n A a b + k * bil n A a b'.
Proof.
  unfold bil. rewrite <- bigsum_scal, <- bigsum_plus. apply bigsum_ext. intros i Hi.
  rewrite <- bigsum_scal, <- bigsum_plus. apply bigsum_ext. intros j Hj. ring.
Qed.
Lemma bil_ext n A B a a' b b' : (forall i j, (i < n)%nat -> (j < n)%nat -> A i j = B i j) -> (forall i, (i < n)%nat -> a i = a' i) -> (forall i, (i < n)%nat -> b i = b' i) ->
  bil n A a b = bil n B a' b'.
Proof. intros HA Ha Hb. apply bigsum_ext. intros i Hi. apply bigsum_ext. intros j Hj. rewrite HA, Ha, Hb by assumption. reflexivity. Qed.
Lemma form_ext n A B a a' : (forall i j, (i < n)%nat -> (j < n)%nat -> A i j = B i j) -> (forall i, (i < n)%nat -> a i = a' i) -> form n A a = form n B a'.
Proof. intros HA Ha. now apply bil_ext. Qed.
Lemma form_add n A a b k : symmetric n A -> form n A (fun i => a i + k * b i) = form n A a + 2 * k * bil n A a b + k * k * form n A b.
Proof.
  intros Hs. change (form n A (fun i => a i + k * b i)) with (bil n A (fun i => a i + k * b i) (fun i => a i + k * b i)).
  change (form n A a) with (bil n A a a). change (form n A b) with (bil n A b b).
  rewrite bil_lin_l, !bil_lin_r, (bil_sym n A b a Hs). ring.
Qed.
Lemma dot_ext n a a' b b' : (forall i, (i < n)%nat -> a i = a' i) -> (forall i, (i < n)%nat -> b i = b' i) -> dot n a b = dot n a' b'.
Proof. intros Ha Hb. apply bigsum_ext. intros i Hi. rewrite Ha, Hb by assumption. reflexivity. Qed.
Lemma dot_add n a b b' k : dot n a (fun i => b i + k * b' i) = dot n a b + k * dot n a b'.
Proof. unfold dot. rewrite <- bigsum_scal, <- bigsum_plus. apply bigsum_ext. intros i Hi. ring. Qed.

(** the form of a sum of l v v^T *)
Lemma form_rank n (w : R * list R -> R) es d :
  form n (fun i j => rsum (fun e => w e * nth i (snd e) 0 * nth j (snd e) 0) es) d =
  rsum (fun e => w e * (dot n (fun i => nth i (snd e) 0) d * dot n (fun i => nth i (snd e) 0) d)) es.
Proof.
  induction es as [|e es IH].
  - rewrite rsum_nil. unfold form. rewrite (bigsum_ext n _ (fun _ => 0)); [apply bigsum_zero|]. intros i _.
    rewrite (bigsum_ext n _ (fun _ => 0)); [apply bigsum_zero|]. intros j _. rewrite rsum_nil. ring.
  - rewrite rsum_cons, <- IH. set (g := fun i => nth i (snd e) 0).
    rewrite (form_ext n _ (fun i j => w e * g i * g j + rsum (fun e0 => w e0 * nth i (snd e0) 0 * nth j (snd e0) 0) es) d d).
    + unfold form. 
      rewrite (bigsum_ext n _ (fun i => w e * (g i * d i) * dot n g d +
        bigsum n (fun j => rsum (fun e0 => w e0 * nth i (snd e0) 0 * nth j (snd e0) 0) es * d i * d j))).
      * rewrite bigsum_plus. f_equal.
        rewrite (bigsum_ext n _ (fun i => w e * dot n g d * (g i * d i))) by (intros; ring).
        rewrite bigsum_scal. change (bigsum n (fun i => g i * d i)) with (dot n g d). ring.
      * intros i _. unfold dot. rewrite <- bigsum_scal, <- bigsum_plus. apply bigsum_ext. intros j _. ring.
    + intros i j _ _. rewrite rsum_cons. reflexivity.
    + reflexivity.
Qed.

(** ** The part of the Hessian with positive eigenvalues *)
Lemma pos_hess_at n (es : list (R * list R)) : forall i j, (i < n)%nat -> (j < n)%nat ->
  at2 (pos_hess n es) i j = rsum (fun e => Rmax (fst e) 0 * nth i (snd e) 0 * nth j (snd e) 0) es.
Proof.
  intros i j Hi Hj. unfold pos_hess.
  assert (G : forall p, at2 (fold_left (fun p e => if (fst e >? nzero)%num then tab n (fun i j => (at2 p i j + fst e * nth i (snd e) nzero * nth j (snd e) nzero)%num) else p) es p) i j =
    at2 p i j + rsum (fun e => Rmax (fst e) 0 * nth i (snd e) 0 * nth j (snd e) 0) es).
  { induction es as [|e es IH]; intros p; cbn [fold_left]; [rewrite rsum_nil; ring|]. rewrite IH, rsum_cons, <- Rplus_assoc. f_equal.
    rnum. destruct (Rltb_spec 0 (fst e)).
    - rewrite at2_tab by assumption. rnum. rewrite Rmax_left by lra. reflexivity.
    - rewrite Rmax_right by lra. ring. }
  etransitivity; [apply G|]. rewrite at2_tab by assumption. rnum. ring.
Qed.
Lemma pos_hess_shape n (es : list (R * list R)) : length (pos_hess n es) = n /\ forall i, (i < n)%nat -> length (nth i (pos_hess n es) []) = n.
Proof.
  assert (G : forall F : nat -> nat -> R, length (tab n F) = n /\ forall i, (i < n)%nat -> length (nth i (tab n F) []) = n).
  { intros F. unfold tab. split; [now rewrite map_length, seq_length|]. intros i Hi.
    rewrite (nth_indep _ [] (map (F 0%nat) (seq 0 n))) by (rewrite map_length, seq_length; exact Hi).
    rewrite (map_nth (fun i => map (F i) (seq 0 n))), map_length, seq_length. reflexivity. }
  unfold pos_hess. assert (K : forall p : list (list R), (length p = n /\ forall i, (i < n)%nat -> length (nth i p []) = n) ->
    let q := fold_left (fun p e => if (fst e >? nzero)%num then tab n (fun i j => (at2 p i j + fst e * nth i (snd e) nzero * nth j (snd e) nzero)%num) else p) es p in
    length q = n /\ forall i, (i < n)%nat -> length (nth i q []) = n).
  { induction es as [|e es IH]; intros p Hp; cbn [fold_left]; [exact Hp|]. apply IH. destruct (fst e >? nzero)%num; [apply G|exact Hp]. }
  apply K, G.
Qed.

(** ** The triangle of the terms *)
Fixpoint tri (F : nat -> nat -> R) (l : list nat) : R :=
  match l with [] => 0 | i :: r => F i i / 2 + rsum (F i) r + tri F r end.
Lemma tri_half F l : (forall i j, In i l -> In j l -> F i j = F j i) -> tri F l = / 2 * rsum (fun i => rsum (F i) l) l.
Proof.
  induction l as [|a l IH]; intros Hs; [rewrite rsum_nil; cbn; ring|]. cbn [tri]. rewrite rsum_cons, IH by (intros; apply Hs; now right).
  rewrite !rsum_cons. rewrite (rsum_ext (fun i => rsum (F i) (a :: l)) (fun i => F i a + rsum (F i) l)) by (intros; apply rsum_cons).
  rewrite rsum_plus. rewrite (rsum_ext (fun i => F i a) (F a)) by (intros i Hi; apply Hs; [now right|now left]). field.
Qed.
Lemma tri_seq (F : nat -> nat -> R) k : forall s,
  rsum (fun ij => if (fst ij =? snd ij)%nat then F (fst ij) (snd ij) / 2 else F (fst ij) (snd ij))
    (flat_map (fun i => (i, i) :: map (pair i) (seq (S i) (s + k - S i))) (seq s k)) = tri F (seq s k).
Proof.
  induction k as [|k IH]; intros s; [reflexivity|]. cbn [seq flat_map tri]. rewrite rsum_app, rsum_cons, rsum_map.
  cbn [fst snd]. rewrite Nat.eqb_refl. replace (s + S k - S s)%nat with k by lia.
  rewrite (rsum_ext _ (F s) (seq (S s) k)).
  - f_equal. rewrite <- (IH (S s)). f_equal. apply flat_map_ext. intros i. do 2 f_equal. f_equal. lia.
  - intros j Hj. apply in_seq in Hj. replace (s =? j)%nat with false by (symmetry; apply Nat.eqb_neq; lia). reflexivity.
Qed.

(** ** The expression *)
Lemma func_cost_full_value val (grad : list R) (p : list (list R)) (x : list R) vs pt n :
  length x = n -> length grad = n -> length vs = n -> length p = n -> (forall i, (i < n)%nat -> length (nth i p []) = n) -> symmetric n (at2 p) ->
  quad_value (func_cost_full val grad p x vs) pt =
  val + dot n (fun i => nth i grad 0) (fun i => nth (nth i vs 0%nat) pt 0 - nth i x 0) +
  / 2 * form n (at2 p) (fun i => nth (nth i vs 0%nat) pt 0 - nth i x 0).
Proof.
  intros Hx Hg Hv Hp Hr Hs. rewrite quad_value_sum, aff_value_sum. unfold func_cost_full. rewrite Hx.
  cbn [q_aff q_coeffs q_vars1 q_vars2 a_const a_coeffs a_vars].
  set (y := fun i => nth (nth i vs 0%nat) pt 0). set (xx := fun i => nth i x 0). set (P := at2 p).
  set (px := map (fun row => vdot row x) p).
  assert (Hpx : length px = n) by (unfold px; now rewrite map_length).
  assert (Epx : forall i, (i < n)%nat -> nth i px 0 = dot n (P i) xx).
  { intros i Hi. unfold px. rewrite (nth_indep _ 0 (vdot (@nil R) x)) by (rewrite map_length; lia).
    rewrite (map_nth (fun row => vdot row x)). rewrite (vdot_bigsum _ x n (Hr i Hi) Hx). reflexivity. }
  rewrite (vdot_bigsum grad x n Hg Hx), (vdot_bigsum x px n Hx Hpx). rnum. rewrite Rdec_half.
  (* the affine part *)
  assert (E1 : rsum (tm pt) (combine (map (fun q : R * R => fst q - snd q) (combine grad px)) vs) =
    dot n (fun i => nth i grad 0) y - bil n P y xx).
  { rewrite (rsum_nth _ (0, 0%nat)), combine_length, map_length, combine_length, Hg, Hpx, Hv, !Nat.min_id.
    unfold dot, bil, Rminus. rewrite <- (Rmult_1_l (bigsum n (fun i => bigsum n (fun j => P i j * y i * xx j)))), Ropp_mult_distr_l.
    rewrite <- bigsum_scal, <- bigsum_plus. apply bigsum_ext. intros i Hi.
    rewrite combine_nth by (rewrite map_length, combine_length; lia). cbn [fst snd].
    rewrite (nth_indep _ 0 ((fun q : R * R => fst q - snd q) (0, 0))) by (rewrite map_length, combine_length; lia).
    rewrite (map_nth (fun q : R * R => fst q - snd q)), combine_nth by congruence. cbn [fst snd]. rewrite (Epx i Hi). unfold dot.
    rewrite (bigsum_ext n (fun j => P i j * y i * xx j) (fun j => y i * (P i j * xx j))) by (intros; ring). rewrite bigsum_scal.
    fold (y i). ring. }
  set (ijs := flat_map (fun i => (i, i) :: map (pair i) (seq (S i) (n - S i))) (seq 0 n)).
  assert (Eijs : ijs = flat_map (fun i => (i, i) :: map (pair i) (seq (S i) (0 + n - S i))) (seq 0 n)) by reflexivity.
  match goal with |- context [rsum ?g (combine (map ?c ijs) (combine (map ?a ijs) (map ?b ijs)))] =>
    assert (E2 : rsum g (combine (map c ijs) (combine (map a ijs) (map b ijs))) = / 2 * form n P y) end.
  { transitivity (rsum (fun ij => if (fst ij =? snd ij)%nat then P (fst ij) (snd ij) * y (fst ij) * y (snd ij) / 2 else P (fst ij) (snd ij) * y (fst ij) * y (snd ij)) ijs).
    - clear. induction ijs as [|ij l IH]; [reflexivity|]. cbn [map combine]. rewrite !rsum_cons, IH. f_equal. cbn [fst snd].
      unfold y, P. destruct (fst ij =? snd ij)%nat; rnum; cbn; try field; ring.
    - rewrite Eijs. rewrite (tri_seq (fun i j => P i j * y i * y j) n 0). rewrite tri_half; [reflexivity|].
      intros i j Hi Hj. apply in_seq in Hi, Hj. unfold P. rewrite (Hs i j) by lia. ring. }
  match goal with |- _ + _ + ?r = _ => replace r with (/ 2 * form n P y) end.
  rewrite E1. change (fun i : nat => nth i x 0) with xx.
  assert (E3 : dot n xx (fun i => nth i px 0) = form n P xx).
  { unfold dot, form. apply bigsum_ext. intros i Hi. rewrite (Epx i Hi). unfold dot. rewrite <- bigsum_scal. apply bigsum_ext. intros j _. ring. }
  rewrite E3.
  rewrite (dot_ext n _ (fun i => nth i grad 0) (fun i => nth (nth i vs 0%nat) pt 0 - nth i x 0) (fun i => y i + -1 * xx i)) by (intros; unfold y, xx; ring).
  rewrite (form_ext n _ P (fun i => nth (nth i vs 0%nat) pt 0 - nth i x 0) (fun i => y i + -1 * xx i)) by (intros; unfold y, xx; ring).
  rewrite dot_add, form_add by exact Hs. field.
Qed.

(** ** Difference quotients of a quadratic function *)
Lemma nth_upd (x : list R) i v k : (i < length x)%nat -> nth k (upd x i v) 0 = if (k =? i)%nat then v else nth k x 0.
Proof.
  revert i k. induction x as [|a x IH]; intros [|i] [|k] H; cbn in *; try lia; try reflexivity. now rewrite IH by lia.
Qed.
Lemma upd_length (x : list R) i v : length (upd x i v) = length x.
Proof. revert i. induction x as [|a x IH]; intros [|i]; cbn; congruence. Qed.

Definition unit_at (i k : nat) : R := if (k =? i)%nat then 1 else 0.
Lemma dot_unit n a i : (i < n)%nat -> dot n a (unit_at i) = a i.
Proof.
  intros Hi. unfold dot. rewrite (bigsum_single n _ i Hi); unfold unit_at.
  - rewrite Nat.eqb_refl. ring.
  - intros k _ Hk. apply Nat.eqb_neq in Hk. rewrite Hk. ring.
Qed.
Lemma bil_unit n A a i : (i < n)%nat -> bil n A (unit_at i) a = dot n (A i) a.
Proof.
  intros Hi. unfold bil. rewrite (bigsum_single n _ i Hi); unfold unit_at.
  - rewrite Nat.eqb_refl. unfold dot. apply bigsum_ext. intros; ring.
  - intros k _ Hk. apply Nat.eqb_neq in Hk. rewrite Hk. rewrite (bigsum_ext n _ (fun _ => 0)); [apply bigsum_zero|intros; ring].
Qed.
Lemma upd_unit x n i e : length x = n -> (i < n)%nat -> forall k, nth k (upd x i (nth i x 0 + e)) 0 = nth k x 0 + e * unit_at i k.
Proof. intros Hl Hi k. rewrite nth_upd by lia. unfold unit_at. destruct (Nat.eqb_spec k i); [subst|]; ring. Qed.

Lemma quadratic_grad n f c b A eps z : quadratic n f c b A -> eps <> 0 -> length z = n ->
  length (forward_grad f z eps) = n /\
  forall i, (i < n)%nat -> nth i (forward_grad f z eps) 0 = b i + dot n (A i) (fun k => nth k z 0) + / 2 * eps * A i i.
Proof.
  intros [Hs Hf] He Hz. unfold forward_grad, indices. split; [now rewrite map_length, seq_length|].
  intros i Hi. rewrite Hz, nth_map_seq by exact Hi. rnum. rewrite (Hf z Hz), Hf by now rewrite upd_length.
  rewrite (dot_ext n b b _ (fun k => nth k z 0 + eps * unit_at i k)) by (intros; first [reflexivity | now apply (upd_unit z n)]).
  rewrite (form_ext n A A _ (fun k => nth k z 0 + eps * unit_at i k)) by (intros; first [reflexivity | now apply (upd_unit z n)]).
  rewrite dot_add, form_add, dot_unit by assumption. rewrite (bil_sym n A _ _ Hs), bil_unit by exact Hi.
  change (form n A (unit_at i)) with (bil n A (unit_at i) (unit_at i)). rewrite bil_unit, dot_unit by exact Hi. field. exact He.
Qed.

Lemma quadratic_hess n f c b A eps x : quadratic n f c b A -> eps <> 0 -> length x = n ->
  forall i j, (i < n)%nat -> (j < n)%nat -> at2 (snd (grad_hess f x eps)) i j = A i j.
Proof.
  intros Hq He Hx i j Hi Hj. unfold grad_hess. cbn [snd]. rewrite Hx, at2_tab by assumption. rnum.
  assert (G : forall i j, (i < n)%nat -> (j < n)%nat -> at2 (forward_jac_cols (fun z => forward_grad f z eps) x eps) j i = A i j).
  { clear i j Hi Hj. intros i j Hi Hj. unfold at2, forward_jac_cols, indices. rewrite Hx.
    set (F := fun k : nat => map (fun p : R * R => ((fst p - snd p) / eps)%num) (combine (forward_grad f (upd x k (nth k x nzero + eps)%num) eps) (forward_grad f x eps))).
    rewrite (nth_indep _ [] (F 0%nat)) by (rewrite map_length, seq_length; exact Hj).
    rewrite map_nth, seq_nth by exact Hj. unfold F. cbn [Nat.add]. rnum.
    destruct (quadratic_grad n f c b A eps x Hq He Hx) as [L1 G1].
    destruct (quadratic_grad n f c b A eps (upd x j (nth j x 0 + eps)) Hq He ltac:(now rewrite upd_length)) as [L2 G2].
    rewrite (nth_indep _ 0 ((fun p : R * R => (fst p - snd p) / eps) (0, 0))) by (rewrite map_length, combine_length; lia).
    rewrite (map_nth (fun p : R * R => (fst p - snd p) / eps)), combine_nth by congruence. cbn [fst snd].
    rewrite (G1 i Hi), (G2 i Hi).
    rewrite (dot_ext n (A i) (A i) _ (fun k => nth k x 0 + eps * unit_at j k)) by (intros; first [reflexivity | now apply (upd_unit x n)]).
    rewrite dot_add, dot_unit by exact Hj. field. exact He. }
  rewrite (G i j Hi Hj), (G j i Hj Hi). destruct Hq as [Hs _]. rewrite (Hs j i Hj Hi). field.
Qed.
