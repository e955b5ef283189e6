(** * C144: function costs with a full Hessian *)
From Coq Require Import List ZArith Bool Arith Lia Reals Lra.
From Verif Require Import Num NumFacts RSums Common ScoExprModel ScoExprProofs ModelingModel ModelingSpec ModelingProofs HessModel HessSpec HessProofs.
Import ListNotations.
Local Open Scope R_scope.

(** The model is the value, plus the forward differences times the step, plus half the squares along the eigenvectors, with those
    eigenvalues that are positive: whatever the function, the solver for the eigenvalues and the point. *)
Theorem C144_model :
  forall (solver : list (list R) -> list (R * list R)) (f : list R -> R) (eps : R) (x : list R) (vs : list nat) (pt : list R),
    let n := length vs in let xe := get_vec x vs in
    let q := full_convex solver f eps x vs in
    let d := fun i => nth (nth i vs 0%nat) pt 0 - nth (nth i vs 0%nat) x 0 in
    quad_value q pt =
      f xe + dot n (fun i => (f (upd xe i (nth i xe 0 + eps)) - f xe) / eps) d +
      / 2 * rsum (fun e => Rmax (fst e) 0 * (dot n (fun i => nth i (snd e) 0) d * dot n (fun i => nth i (snd e) 0) d)) (solver (snd (grad_hess f xe eps))).
Proof.
  intros solver f eps x vs pt n xe q d. assert (Hx : length xe = n) by apply map_length.
  unfold q, full_convex. fold xe. destruct (grad_hess f xe eps) as [[val grad] hess] eqn:E. unfold grad_hess in E. injection E as <- <- Eh.
  cbn [snd]. rewrite Hx. set (es := solver hess).
  assert (Hg : length (forward_grad f xe eps) = n) by (unfold forward_grad, indices; now rewrite map_length, seq_length).
  destruct (pos_hess_shape n es) as [S1 S2].
  rewrite (func_cost_full_value (f xe) _ _ xe vs pt n Hx Hg eq_refl S1 S2).
  - assert (Ed : forall i, (i < n)%nat -> nth (nth i vs 0%nat) pt 0 - nth i xe 0 = d i).
    { intros i Hi. unfold d, xe, get_vec. f_equal. rewrite (nth_indep _ 0 (nth 0%nat x nzero)) by (rewrite map_length; exact Hi).
      rewrite (map_nth (fun v => nth v x nzero)). reflexivity. }
    f_equal; [f_equal|f_equal].
    + apply dot_ext; [|exact Ed]. intros i Hi. unfold forward_grad, indices. rewrite Hx, nth_map_seq by exact Hi. reflexivity.
    + rewrite <- (form_rank n (fun e => Rmax (fst e) 0) es d). apply form_ext; [|exact Ed]. intros i j Hi Hj. now apply pos_hess_at.
  - intros i j Hi Hj. rewrite !pos_hess_at by assumption. apply rsum_ext. intros e _. ring.
Qed.
Print Assumptions C144_model.

(** So the model has the value of the function at the point, is nowhere below its tangent there, and is convex. *)
Theorem C144_convex :
  forall solver (f : list R -> R) (eps : R) (x : list R) (vs : list nat),
    let n := length vs in let xe := get_vec x vs in
    let q := full_convex solver f eps x vs in
    quad_value q x = f xe /\
    (forall pt, f xe + dot n (fun i => (f (upd xe i (nth i xe 0 + eps)) - f xe) / eps) (fun i => nth (nth i vs 0%nat) pt 0 - nth (nth i vs 0%nat) x 0) <= quad_value q pt) /\
    (forall t a b pt, 0 <= t <= 1 -> (forall v, In v vs -> nth v pt 0 = t * nth v a 0 + (1 - t) * nth v b 0) ->
       quad_value q pt <= t * quad_value q a + (1 - t) * quad_value q b).
Proof.
  intros solver f eps x vs n xe q.
  assert (M := C144_model solver f eps x vs). cbv zeta in M. fold n xe q in M.
  set (g := fun i => (f (upd xe i (nth i xe 0 + eps)) - f xe) / eps) in *.
  set (es := solver (snd (grad_hess f xe eps))) in *.
  split; [|split].
  - rewrite M. set (z := fun i => nth (nth i vs 0%nat) x 0 - nth (nth i vs 0%nat) x 0).
    assert (D0 : forall a, dot n a z = 0).
    { intros a. unfold dot. rewrite (bigsum_ext n _ (fun _ => 0)); [apply bigsum_zero|]. intros i _. unfold z. ring. }
    rewrite D0, (rsum_ext _ (fun _ => 0)); [rewrite rsum_zero; ring|]. intros e _. rewrite D0. ring.
  - intros pt. rewrite M. match goal with |- _ <= _ + / 2 * ?r => assert (0 <= r) end.
    { apply rsum_nonneg. intros e _. apply Rmult_le_pos; [apply Rmax_r|apply Rle_0_sqr]. }
    lra.
  - intros t a b pt Ht Hp. rewrite !M.
    set (da := fun i => nth (nth i vs 0%nat) a 0 - nth (nth i vs 0%nat) x 0). set (db := fun i => nth (nth i vs 0%nat) b 0 - nth (nth i vs 0%nat) x 0).
    assert (Ed : forall c, dot n c (fun i => nth (nth i vs 0%nat) pt 0 - nth (nth i vs 0%nat) x 0) = t * dot n c da + (1 - t) * dot n c db).
    { intros c. unfold dot. rewrite <- !bigsum_scal, <- bigsum_plus. apply bigsum_ext. intros i Hi. unfold da, db.
      rewrite (Hp (nth i vs 0%nat)) by (apply nth_In; exact Hi). ring. }
    rewrite Ed.
    match goal with |- _ + / 2 * ?l <= t * (_ + / 2 * ?u) + (1 - t) * (_ + / 2 * ?v) => assert (l <= t * u + (1 - t) * v) end.
    { rewrite <- !rsum_scal, <- rsum_plus. apply rsum_le. intros e _. rewrite Ed.
      set (w := Rmax (fst e) 0). assert (0 <= w) by apply Rmax_r. set (u := dot n _ da). set (v := dot n _ db).
      assert (0 <= w * (t * (1 - t) * ((u - v) * (u - v)))); [|lra].
      apply Rmult_le_pos; [assumption|]. apply Rmult_le_pos; [apply Rmult_le_pos; lra|apply Rle_0_sqr]. }
    lra.
Qed.
Print Assumptions C144_convex.

(** With eigenvalues and eigenvectors that are those of the Hessian, the model is nowhere below the second-order expansion, and is the
    expansion if no eigenvalue is negative. *)
Theorem C144_expansion :
  forall solver (f : list R -> R) (eps : R) (x : list R) (vs : list nat) (pt : list R),
    let n := length vs in let xe := get_vec x vs in
    let H := at2 (snd (grad_hess f xe eps)) in let es := solver (snd (grad_hess f xe eps)) in
    let q := full_convex solver f eps x vs in
    let d := fun i => nth (nth i vs 0%nat) pt 0 - nth (nth i vs 0%nat) x 0 in
    let second := f xe + dot n (fun i => (f (upd xe i (nth i xe 0 + eps)) - f xe) / eps) d + / 2 * form n H d in
    decomposes n H es ->
    second <= quad_value q pt /\ (Forall (fun e => 0 <= fst e) es -> quad_value q pt = second).
Proof.
  intros solver f eps x vs pt n xe H es q d second Hd.
  assert (M := C144_model solver f eps x vs pt). cbv zeta in M. fold n xe q d es in M. rewrite M. unfold second.
  rewrite (form_ext n H (fun i j => rsum (fun e => fst e * nth i (snd e) 0 * nth j (snd e) 0) es) d d) by (try assumption; reflexivity).
  rewrite form_rank. split.
  - apply Rplus_le_compat_l. apply Rmult_le_compat_l; [lra|]. apply rsum_le. intros e _.
    apply Rmult_le_compat_r; [apply Rle_0_sqr|apply Rmax_l].
  - intros Hp. f_equal. f_equal. apply rsum_ext. intros e He. rewrite Forall_forall in Hp. rewrite Rmax_left by now apply Hp. reflexivity.
Qed.
Print Assumptions C144_expansion.

(** For a quadratic function the differences give the Hessian exactly, but the gradient with half the step times the diagonal added.  So
    the model of a convex one is the function plus that error times the distance. *)
Theorem C144_quadratic :
  forall solver (f : list R -> R) c b A (eps : R) (x : list R) (vs : list nat) (pt : list R),
    let n := length vs in let xe := get_vec x vs in let es := solver (snd (grad_hess f xe eps)) in
    quadratic n f c b A -> eps <> 0 -> decomposes n A es -> Forall (fun e => 0 <= fst e) es ->
    (forall i j, (i < n)%nat -> (j < n)%nat -> at2 (snd (grad_hess f xe eps)) i j = A i j) /\
    quad_value (full_convex solver f eps x vs) pt =
      f (get_vec pt vs) + / 2 * eps * dot n (fun i => A i i) (fun i => nth (nth i vs 0%nat) pt 0 - nth (nth i vs 0%nat) x 0).
Proof.
  intros solver f c b A eps x vs pt n xe es Hq He Hd Hp. assert (Hx : length xe = n) by apply map_length.
  assert (Hh := quadratic_hess n f c b A eps xe Hq He Hx). split; [exact Hh|].
  assert (Hd' : decomposes n (at2 (snd (grad_hess f xe eps))) es) by (intros i j Hi Hj; rewrite Hh by assumption; now apply Hd).
  destruct (C144_expansion solver f eps x vs pt Hd') as [_ E]. rewrite (E Hp). fold n xe.
  assert (Gx : forall z i, (i < n)%nat -> nth i (get_vec z vs) 0 = nth (nth i vs 0%nat) z 0).
  { intros z i Hi. unfold get_vec. rewrite (nth_indep _ 0 (nth 0%nat z nzero)) by (rewrite map_length; exact Hi).
    rewrite (map_nth (fun v => nth v z nzero)). reflexivity. }
  set (d := fun i => nth (nth i vs 0%nat) pt 0 - nth (nth i vs 0%nat) x 0). pose proof Hq as [Hs Hf].
  assert (Eg : forall i, (i < n)%nat -> (f (upd xe i (nth i xe 0 + eps)) - f xe) / eps = b i + dot n (A i) (fun k => nth k xe 0) + / 2 * eps * A i i).
  { intros i Hi. destruct (quadratic_grad n f c b A eps xe Hq He Hx) as [_ G]. rewrite <- (G i Hi). unfold forward_grad, indices.
    rewrite Hx, nth_map_seq by exact Hi. reflexivity. }
  rewrite (dot_ext n _ (fun i => b i + dot n (A i) (fun k => nth k xe 0) + / 2 * eps * A i i) d d Eg) by reflexivity.
  rewrite (form_ext n _ A d d Hh) by reflexivity.
  rewrite (Hf xe Hx), (Hf (get_vec pt vs)) by apply map_length.
  assert (Ep : forall i, (i < n)%nat -> nth i (get_vec pt vs) 0 = nth i xe 0 + 1 * d i).
  { intros i Hi. unfold xe. rewrite !Gx by exact Hi. unfold d. ring. }
  rewrite (dot_ext n b b (fun i => nth i (get_vec pt vs) 0) (fun i => nth i xe 0 + 1 * d i) (fun i _ => eq_refl) Ep).
  rewrite (form_ext n A A (fun i => nth i (get_vec pt vs) 0) (fun i => nth i xe 0 + 1 * d i) (fun i j _ _ => eq_refl) Ep).
  rewrite dot_add, form_add by exact Hs.
  assert (E3 : dot n (fun i => b i + dot n (A i) (fun k => nth k xe 0) + / 2 * eps * A i i) d =
    dot n b d + bil n A (fun k => nth k xe 0) d + / 2 * eps * dot n (fun i => A i i) d).
  { rewrite (bil_sym n A _ _ Hs). unfold dot, bil. rewrite <- bigsum_scal, <- !bigsum_plus. apply bigsum_ext. intros i Hi.
    rewrite (bigsum_ext n (fun j => A i j * d i * nth j xe 0) (fun j => d i * (A i j * nth j xe 0))) by (intros; ring).
    rewrite bigsum_scal. ring. }
  rewrite E3. field.
Qed.
Print Assumptions C144_quadratic.

(** f(z) = z0^2 + z0 z1 + z1^2, which mixes its variables, through variables 2 and 0 *)
Definition ex_f (z : list R) : R := nth 0 z 0 * nth 0 z 0 + nth 0 z 0 * nth 1 z 0 + nth 1 z 0 * nth 1 z 0.
Definition ex_A (i j : nat) : R := if (i =? j)%nat then 2 else 1.
Definition ex_es : list (R * list R) := [(3 / 2, [1; 1]); (1 / 2, [1; -1])].
Lemma bigsum_2 (F : nat -> R) : bigsum 2 F = F 0%nat + F 1%nat.
Proof. unfold bigsum. cbn [seq]. rewrite !rsum_cons, rsum_nil. ring. Qed.
Example C144_ex : quadratic 2 ex_f 0 (fun _ => 0) ex_A /\ decomposes 2 ex_A ex_es /\ Forall (fun e => 0 <= fst e) ex_es /\
  forall eps, eps <> 0 -> quad_value (full_convex (fun _ => ex_es) ex_f eps [1; 5; 2] [2; 0]%nat) [4; 6; 3] = 3 * 3 + 3 * 4 + 4 * 4 + 4 * eps.
Proof.
  assert (Q : quadratic 2 ex_f 0 (fun _ => 0) ex_A).
  { split; [intros i j _ _; unfold ex_A; now rewrite Nat.eqb_sym|]. intros z _. unfold ex_f, dot, form. rewrite !bigsum_2. unfold ex_A. cbn. field. }
  assert (D : decomposes 2 ex_A ex_es).
  { intros i j Hi Hj. unfold ex_es. rewrite !rsum_cons, rsum_nil. unfold ex_A.
    destruct i as [|[|i]]; [| |lia]; (destruct j as [|[|j]]; [| |lia]); cbn; field. }
  assert (P : Forall (fun e : R * list R => 0 <= fst e) ex_es) by (constructor; [cbn; lra|constructor; [cbn; lra|constructor]]).
  split; [exact Q|]. split; [exact D|]. split; [exact P|]. intros eps He.
  destruct (C144_quadratic (fun _ => ex_es) ex_f 0 (fun _ => 0) ex_A eps [1; 5; 2] [2; 0]%nat [4; 6; 3] Q He D P) as [_ ->].
  unfold dot, ex_f. cbn [length]. rewrite bigsum_2. unfold ex_A. cbn. field.
Qed.

(** Unlike the model with the diagonal only (C72), that with the full Hessian does not even reproduce z^2: at its minimum it promises an
    improvement. *)
Theorem C144_exact_refuted :
  exists (f : list R -> R) solver c b A, quadratic 1 f c b A /\ (forall z, f [0] <= f z) /\
    forall eps, 0 < eps ->
      let q := full_convex solver f eps [0] [0%nat] in
      decomposes 1 A (solver (snd (grad_hess f [0] eps))) /\ exists pt, quad_value q [pt] < f [0] /\ quad_value q [pt] <> f [pt].
Proof.
  exists (fun z => nth 0 z 0 * nth 0 z 0), (fun _ => [(2, [1])]), 0, (fun _ => 0), (fun _ _ => 2).
  assert (B1 : forall F, bigsum 1 F = F 0%nat) by (intros F; unfold bigsum; cbn [seq]; rewrite rsum_cons, rsum_nil; ring).
  assert (Q : quadratic 1 (fun z => nth 0 z 0 * nth 0 z 0) 0 (fun _ => 0) (fun _ _ => 2)).
  { split; [intros i j _ _; reflexivity|]. intros z _. unfold dot, form. rewrite !B1. field. }
  assert (D : decomposes 1 (fun _ _ => 2) [(2, [1])]).
  { intros i j Hi Hj. assert (i = 0%nat) as -> by lia. assert (j = 0%nat) as -> by lia. rewrite rsum_cons, rsum_nil. cbn. ring. }
  assert (P : Forall (fun e : R * list R => 0 <= fst e) [(2, [1])]) by (constructor; [cbn; lra|constructor]).
  split; [exact Q|]. split; [intros z; cbn; pose proof (Rle_0_sqr (nth 0 z 0)) as H; unfold Rsqr in H; lra|].
  intros eps He q. split; [exact D|]. exists (- eps / 2).
  destruct (C144_quadratic (fun _ => [(2, [1])]) (fun z => nth 0 z 0 * nth 0 z 0) 0 (fun _ => 0) (fun _ _ => 2) eps [0] [0%nat] [- eps / 2] Q ltac:(lra) D P) as [_ E].
  unfold q. rewrite E. unfold dot. cbn [length]. rewrite B1. cbn.
  assert (0 < eps * eps) by now apply Rmult_lt_0_compat. split; lra.
Qed.
Print Assumptions C144_exact_refuted.
