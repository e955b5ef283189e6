(** * C34: expressions and matrices *)
From Coq Require Import List ZArith QArith Bool Arith Lia Reals Lra Sorted.
From Verif Require Import Num NumFacts RSums Common ScoExprModel ScoExprProofs EigenModel EigenProofs.
Import ListNotations.
Local Open Scope R_scope.

(** Sparse vector: throws exactly when a variable is out of range; otherwise the scalar product
    with any point is the linear part of the expression. *)
Theorem C34_affine_vector :
  forall (e : aff R) (n : nat), wf_aff e ->
    (aff_to_sparse e n = None <-> ~ Forall (fun v => (v < n)%nat) (a_vars e)) /\
    (forall sv, aff_to_sparse e n = Some sv ->
       StronglySorted lt (map fst sv) /\
       forall x, bigsum n (fun i => nth i (sv_dense n sv) 0 * nth i x 0) = aff_value e x - a_const e).
Proof.
  intros e n H. destruct (aff_to_sparse_spec e n H) as [H1 H2]. split; [exact H1|].
  intros sv Hs. split; [apply (aff_to_sparse_get e n sv Hs)|]. apply H2. exact Hs.
Qed.
Print Assumptions C34_affine_vector.

(** Quadratic objective: with [matrix_is_halved] the solver minimises 1/2 x'Px + q'x, otherwise
    x'Px + q'x; both equal the expression minus its constant, and P is symmetric. *)
Theorem C34_quadratic_objective :
  forall (q : quad R) (n : nat) (halved force_diag : bool), wf_quad q ->
    (Forall (fun v => (v < n)%nat) (a_vars (q_aff q)) ->
     Forall (fun v => (v < n)%nat) (q_vars1 q) -> Forall (fun v => (v < n)%nat) (q_vars2 q) ->
     exists P v, quad_to_eigen q n halved force_diag = Ok (Some (P, v))) /\
    (forall P v, quad_to_eigen q n halved force_diag = Ok (Some (P, v)) ->
       length P = n /\ length v = n /\
       (forall r c, (r < n)%nat -> (c < n)%nat -> entry P r c = entry P c r) /\
       forall x,
         (if halved then / 2 else 1) *
           bigsum n (fun r => bigsum n (fun c => nth r x 0 * entry P r c * nth c x 0)) +
         bigsum n (fun i => nth i v 0 * nth i x 0) = quad_value q x - a_const (q_aff q)).
Proof.
  intros q n h fd Hw. split; [apply (quad_to_eigen_cases q n h fd Hw)|].
  intros P v E. destruct (quad_to_eigen_spec q n h fd P v Hw E) as (H1 & _ & H2 & H3 & H4). auto.
Qed.
Print Assumptions C34_quadratic_objective.

(** Constraint matrix: row i of A x - b is the value of expression i, hence A x <= b (= b) is
    value <= 0 (= 0); throws exactly when a variable is out of range. *)
Theorem C34_constraint_matrix :
  forall (es : list (aff R)) (n : nat), Forall wf_aff es ->
    (affs_to_eigen es n = Ok None <-> ~ Forall (fun e => Forall (fun v => (v < n)%nat) (a_vars e)) es) /\
    (Forall (fun e => Forall (fun v => (v < n)%nat) (a_vars e)) es ->
     exists A b, affs_to_eigen es n = Ok (Some (A, b)) /\ length A = n /\ length b = length es /\
       forall i e x, nth_error es i = Some e ->
         let row := bigsum n (fun c => entry A i c * nth c x 0) in
         (row <= nth i b 0 <-> aff_value e x <= 0) /\ (row = nth i b 0 <-> aff_value e x = 0)).
Proof.
  intros es n Hw. destruct (affs_to_eigen_spec es n Hw) as [H1 H2]. split; [split; [|exact H2]|].
  - intros E Hr. destruct (H1 Hr) as (m & b & E' & _). rewrite E in E'. discriminate.
  - intros Hr. destruct (H1 Hr) as (m & b & E & Hl & _ & Hb & Hv). exists m, b.
    split; [exact E|]. split; [exact Hl|]. split; [exact Hb|]. intros i e x Hi row.
    specialize (Hv i e x Hi). fold row in Hv. lra.
Qed.
Print Assumptions C34_constraint_matrix.

(** What OSQP reads: the upper triangle in compressed-column form.  Reading the three arrays and
    mirroring the upper triangle gives P back, and the objective is the expression. *)
Theorem C34_osqp_arrays :
  forall (q : quad R) (n : nat) (force_diag : bool) (P : smat R) (v : list R), wf_quad q ->
    quad_to_eigen q n true force_diag = Ok (Some (P, v)) ->
    let a := to_csc (upper P) in
    let read r c := rsum (fun k => if Nat.eqb (nth k (c_rows a) 0%nat) r then nth k (c_vals a) 0 else 0)
                      (seq (nth c (c_ptrs a) 0%nat) (nth (S c) (c_ptrs a) 0%nat - nth c (c_ptrs a) 0%nat)) in
    length (c_ptrs a) = S n /\
    (forall r c, (c < r)%nat -> (r < n)%nat -> read r c = 0) /\
    forall x,
      / 2 * bigsum n (fun r => bigsum n (fun c => nth r x 0 * (if (r <=? c)%nat then read r c else read c r) * nth c x 0)) +
      bigsum n (fun i => nth i v 0 * nth i x 0) = quad_value q x - a_const (q_aff q).
Proof.
  intros q n fd P v Hw E a read.
  destruct (quad_to_eigen_spec q n true fd P v Hw E) as (H1 & H2 & H3 & H4 & H5).
  assert (Hlu : length (upper P) = n) by (unfold upper; rewrite map_length, combine_length, seq_length; lia).
  assert (Hwu : wfm n (upper P)).
  { unfold wfm, upper. rewrite Forall_map. apply Forall_forall. intros [i col] Hin. cbn [fst snd].
    apply in_combine_r in Hin. unfold wfm in H2. rewrite Forall_forall in H2. destruct (H2 col Hin) as [A B].
    split.
    - clear - A. induction col as [|p col IH]; [constructor|]. cbn [filter map] in *. inversion A as [|? ? A1 A2]; subst.
      destruct (fst p <=? i)%nat; [|auto]. cbn [map]. constructor; [auto|].
      rewrite Forall_map in A2 |- *. apply Forall_forall. intros y Hy. apply filter_In in Hy as [Hy _].
      rewrite Forall_forall in A2. auto.
    - apply Forall_forall. intros y Hy. apply filter_In in Hy as [Hy _]. rewrite Forall_forall in B. auto. }
  assert (Hr : forall r c, (c < n)%nat -> read r c = if (r <=? c)%nat then entry P r c else 0).
  { intros r c Hc. rewrite <- upper_entry. apply (to_csc_get n); [exact Hwu|lia]. }
  split; [|split].
  - unfold a, to_csc. cbn [c_ptrs]. rewrite app_length. cbn [length].
    enough (forall s, length (offsets s (upper P)) = length (upper P)) as -> by lia.
    generalize (upper P). intros l. induction l as [|col l IH]; intros k; cbn; [reflexivity|]. rewrite IH. reflexivity.
  - intros r c Hcr Hrn. rewrite Hr by lia. destruct (Nat.leb_spec r c); [lia|reflexivity].
  - intros x. rewrite <- (H5 x). f_equal. f_equal. unfold qform. apply bigsum_ext. intros r Hri.
    apply bigsum_ext. intros c Hci. f_equal. f_equal. destruct (Nat.leb_spec r c).
    + rewrite Hr by lia. destruct (Nat.leb_spec r c); [reflexivity|lia].
    + rewrite Hr by lia. destruct (Nat.leb_spec c r); [|lia]. apply H4; assumption.
Qed.
Print Assumptions C34_osqp_arrays.

(** An out-of-range variable in the quadratic part does not throw: nothing checks it before
    Eigen's setFromTriplets, where it is undefined behaviour. *)
Theorem C34_quadratic_range_refuted :
  exists (q : quad R) (n : nat), wf_quad q /\ Forall (fun v => (v < n)%nat) (a_vars (q_aff q)) /\
    ~ Forall (fun v => (v < n)%nat) (q_vars1 q) /\ quad_to_eigen q n true false = Undef.
Proof.
  exists (var_square 3), 2%nat. split; [split; [reflexivity|split; reflexivity]|]. split; [constructor|]. split.
  - intros H. inversion H; subst. lia.
  - unfold quad_to_eigen. cbn [var_square q_vars1 q_vars2 q_coeffs q_aff length Nat.eqb andb negb].
    unfold aff_to_sparse, aff_const, quad_triplets. cbn [a_coeffs a_vars length firstn forallb combine filter fst snd q_coeffs q_vars1 q_vars2 var_square].
    rnum. destruct (Reqb_spec 1 0); [lra|]. reflexivity.
Qed.
Print Assumptions C34_quadratic_range_refuted.

(** Example: repeated and unordered variable pairs; n = 2. *)
Definition ex_quad : quad Q :=
  {| q_aff := {| a_const := 7%Q; a_coeffs := [1; 2; 0; 3]%Q; a_vars := [1; 0; 1; 1]%nat |};
     q_coeffs := [2; 3; 5; 1]%Q; q_vars1 := [1; 0; 1; 0]%nat; q_vars2 := [0; 1; 1; 0]%nat |}.
Example C34_ex :
  wf_quad ex_quad /\
  quad_to_eigen ex_quad 2 true true =
    Ok (Some ([[(0%nat, 2%Q); (1%nat, 5%Q)]; [(0%nat, 5%Q); (1%nat, 10%Q)]], [2%Q; 4%Q])) /\
  to_csc (upper [[(0%nat, 2%Q); (1%nat, 5%Q)]; [(0%nat, 5%Q); (1%nat, 10%Q)]]) =
    {| c_rows := [0; 0; 1]%nat; c_ptrs := [0; 1; 3]%nat; c_vals := [2; 5; 10]%Q |} /\
  aff_to_sparse (q_aff ex_quad) 1 = None /\
  affs_to_eigen [q_aff ex_quad] 2 = Ok (Some ([[(0%nat, 2%Q)]; [(0%nat, 4%Q)]], [(-7)%Q])).
Proof. split; [repeat split|]. split; [vm_compute; reflexivity|]. split; [vm_compute; reflexivity|].
  split; vm_compute; reflexivity. Qed.

(** BPMPD's simplify2: sorted unique indices with the same weighted sum and the same coefficient
    per index. *)
Theorem C44_simplify2 :
  forall (inds : list nat) (vals : list R), length inds = length vals ->
    let (i', v') := simplify2 inds vals in
    length i' = length v' /\ StronglySorted lt i' /\
    (forall x, rsum (fun p => snd p * nth (fst p) x 0) (combine i' v') =
               rsum (fun p => snd p * nth (fst p) x 0) (combine inds vals)).
Proof.
  intros inds vals H. pose proof (simplify2_spec inds vals H) as Hs.
  destruct (simplify2 inds vals) as [i' v']. destruct Hs as (H1 & H2 & H3 & _). auto.
Qed.
Print Assumptions C44_simplify2.
Example C44_simplify2_ex : simplify2 [2; 0; 2; 1; 0]%nat [1; 3; 4; 0; -3]%Q = ([0; 2]%nat, [0; 5]%Q).
Proof. vm_compute. reflexivity. Qed.
