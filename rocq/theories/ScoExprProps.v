(** * Properties of the sco expression algebra (C31-C33) *)
From Coq Require Import List ZArith QArith Reals Bool.
From Verif Require Import Num NumFacts Common ScoExprModel ScoExprProofs.
Import ListNotations.
Local Open Scope R_scope.

(** ** C31 *)
Theorem C31_constructors :
  forall (a : R) (v : nat) (x : list R),
    aff_value (aff_const a) x = a /\ aff_value (aff_var v) x = nth v x 0 /\
    quad_value (quad_const a) x = a /\ quad_value (quad_var v) x = nth v x 0 /\
    (forall e, quad_value (quad_of_aff e) x = aff_value e x) /\
    (forall k, aff_value (var_mult v k) x = nth v x 0 * k).
Proof.
  intros a v x. unfold quad_const, quad_var, var_mult.
  repeat split; intros; rewrite ?aff_scale_value, ?quad_of_aff_value, ?aff_const_value, ?aff_var_value; reflexivity.
Qed.
Print Assumptions C31_constructors.

(** Affine expressions: scale, increment, decrement by a constant, a variable, an affine expression. *)
Theorem C31_affine :
  forall (a b : aff R) (k : R) (v : nat) (x : list R), wf_aff a ->
    aff_value (aff_scale a k) x = aff_value a x * k /\
    aff_value (aff_inc_const a k) x = aff_value a x + k /\
    aff_value (aff_inc a b) x = aff_value a x + aff_value b x /\
    aff_value (aff_inc_var a v) x = aff_value a x + nth v x 0 /\
    aff_value (aff_dec_const a k) x = aff_value a x - k /\
    aff_value (aff_dec a b) x = aff_value a x - aff_value b x /\
    aff_value (aff_dec_var a v) x = aff_value a x - nth v x 0.
Proof.
  intros a b k v x H. unfold aff_inc_var, aff_dec_var.
  repeat split; rewrite ?aff_scale_value, ?aff_inc_const_value, ?aff_dec_const_value,
    ?aff_inc_value, ?aff_dec_value, ?aff_var_value by exact H; reflexivity.
Qed.
Print Assumptions C31_affine.

Theorem C31_quadratic :
  forall (a b : quad R) (e : aff R) (k : R) (v : nat) (x : list R), wf_quad a ->
    quad_value (quad_scale a k) x = quad_value a x * k /\
    quad_value (quad_inc_const a k) x = quad_value a x + k /\
    quad_value (quad_inc_var a v) x = quad_value a x + nth v x 0 /\
    quad_value (quad_inc_aff a e) x = quad_value a x + aff_value e x /\
    quad_value (quad_inc a b) x = quad_value a x + quad_value b x /\
    quad_value (quad_dec_const a k) x = quad_value a x - k /\
    quad_value (quad_dec_var a v) x = quad_value a x - nth v x 0 /\
    quad_value (quad_dec_aff a e) x = quad_value a x - aff_value e x /\
    quad_value (quad_dec a b) x = quad_value a x - quad_value b x.
Proof. exact quad_ops_value. Qed.
Print Assumptions C31_quadratic.

(** The results are again well formed, so operations can be chained. *)
Theorem C31_well_formed :
  forall (a b : aff R) (p q : quad R) (k : R) (v : nat),
    wf_aff a -> wf_aff b -> wf_quad p -> wf_quad q ->
    wf_aff (aff_const k) /\ wf_aff (@aff_var R _ v) /\ wf_aff (aff_scale a k) /\ wf_aff (aff_inc a b) /\
    wf_aff (aff_dec a b) /\ wf_aff (aff_cleanup a) /\ wf_quad (quad_of_aff a) /\ wf_quad (quad_scale p k) /\
    wf_quad (quad_inc p q) /\ wf_quad (quad_dec p q) /\ wf_quad (quad_inc_aff p a) /\ wf_quad (quad_dec_aff p a) /\
    wf_quad (aff_mult a b) /\ wf_quad (aff_square a) /\ wf_quad (@var_square R _ v).
Proof. exact ops_wf. Qed.
Print Assumptions C31_well_formed.

(** ** C32 *)
Theorem C32_product_and_square :
  forall (a b : aff R) (v : nat) (x : list R), wf_aff a -> wf_aff b ->
    quad_value (aff_mult a b) x = aff_value a x * aff_value b x /\
    quad_value (aff_square a) x = aff_value a x * aff_value a x /\
    quad_value (@var_square R _ v) x = nth v x 0 * nth v x 0.
Proof.
  intros a b v x Ha Hb. repeat split; [apply aff_mult_value|apply aff_square_value|apply var_square_value]; assumption.
Qed.
Print Assumptions C32_product_and_square.

(** repeated variables and a zero coefficient, at the point (5,7) *)
Example C31_C32_C33_ex :
  let a := {| a_const := 1%Q; a_coeffs := [2; 0; 3; 1 # 20000000]%Q; a_vars := [0; 1; 0; 1]%nat |} in
  let b := {| a_const := (-1)%Q; a_coeffs := [1; 1]%Q; a_vars := [1; 0]%nat |} in
  let x := [5; 7]%Q in
  wf_aff a /\ wf_aff b /\
  quad_value (aff_mult (aff_cleanup a) b) x = 286%Q /\ quad_value (aff_square (aff_cleanup a)) x = 676%Q /\
  aff_value (aff_dec (aff_cleanup a) b) x = 15%Q /\ a_vars (aff_cleanup a) = [0; 0]%nat.
Proof. repeat split. Qed.

(** ** C33 *)
Theorem C33_cleanup :
  forall (e : aff R) (x : list R), wf_aff e ->
    let removed := filter (fun cv => Rleb (Rabs (fst cv)) (1 / 10 ^ 7)) (combine (a_coeffs e) (a_vars e)) in
    wf_aff (aff_cleanup e) /\ a_const (aff_cleanup e) = a_const e /\
    combine (a_coeffs (aff_cleanup e)) (a_vars (aff_cleanup e)) =
      filter (fun cv => Rltb (1 / 10 ^ 7) (Rabs (fst cv))) (combine (a_coeffs e) (a_vars e)) /\
    Rabs (aff_value (aff_cleanup e) x - aff_value e x) <=
      1 / 10 ^ 7 * Rsum (map (fun cv => Rabs (nth (snd cv) x 0)) removed).
Proof. exact cleanup_all. Qed.
Print Assumptions C33_cleanup.
