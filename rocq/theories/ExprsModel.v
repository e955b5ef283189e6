(** * Model of the affine and quadratic expressions of trajopt_sqp

    Source: trajopt_sqp/src/expressions.cpp.

    Simplifications: sparse matrices are lists of rows as in IfoptModel; sums of products that Eigen
    forms row by row are folds in storage order; the product Bw^T Bw is stored densely.  [Bad] is a
    failed assertion (sizes).  The square root is a parameter. *)
From Coq Require Import List ZArith Bool Arith.
From Verif Require Import Num IfoptModel.
Import ListNotations.
Local Open Scope num_scope.

Section Exprs.
  Context {T : Type} {NT : Num T}.
  Variable sq : T -> T.

  (** AffExprs: constants, linear_coeffs *)
  Record affs := { ae_const : list T; ae_lin : list (srow T) }.
  (** QuadExprs: constants, linear_coeffs, quadratic_coeffs, objective_linear_coeffs,
      objective_quadratic_coeffs *)
  Record quads := { qe_const : list T; qe_lin : list (srow T); qe_quad : list (list (srow T));
                    qe_obj_lin : list T; qe_obj_quad : list (list T) }.

  Definition vzip (f : T -> T -> T) (a b : list T) : list T := map (fun p => f (fst p) (snd p)) (combine a b).

  (** AffExprs::values, 6-11 *)
  Definition ae_values (a : affs) (x : list T) : res (list T) :=
    if (length (ae_lin a) =? length (ae_const a))%nat then Val (vzip nadd (ae_const a) (jac_mul (ae_lin a) x)) else Bad.
  (** AffExprs::create, 13-24 *)
  Definition ae_create (f : list T) (j : list (srow T)) (x : list T) : res affs :=
    if (length j =? length f)%nat then Val {| ae_const := vzip nsub f (jac_mul j x); ae_lin := j |} else Bad.

  (** coefficient of column [c] in a row *)
  Definition coeff (r : srow T) (c : nat) : T :=
    fold_left (fun s cv => if (fst cv =? c)%nat then s + snd cv else s) r nzero.
  (** AffExprs::square, 26-112, with [n] columns *)
  Definition ae_square (n : nat) (a : affs) (w : list T) : res quads :=
    let m := length (ae_const a) in
    if ((length w =? m) && (length (ae_lin a) =? m))%nat%bool then
      let consts := vzip nmul (vzip nmul (ae_const a) (ae_const a)) w in
      let lin := scale_rows (map (fun v => nofZ 2 * v) (vzip nmul (ae_const a) w)) (ae_lin a) in
      let bw := scale_rows (map sq w) (ae_lin a) in
      Val {| qe_const := consts; qe_lin := lin;
             qe_quad := map (fun r => match r with [] => [] | _ => [r] end) bw;
             qe_obj_lin := col_sums n lin;
             qe_obj_quad := map (fun i => map (fun k => vsum (map (fun r => coeff r i * coeff r k) bw)) (seq 0 n)) (seq 0 n) |}
    else Bad.

  (** one step of the loop of QuadExprs::values, 142-169: what is added for Q_i *)
  Definition quad_value (q : list (srow T)) (x : list T) : T :=
    match q with
    | [] => nzero
    | [r] => let t := srow_dot r x in t * t
    | _ => vdot x (jac_mul q x)
    end.
  (** QuadExprs::values, 123-170 *)
  Definition qe_values (e : quads) (x : list T) : res (list T) :=
    if (length (qe_lin e) =? length (qe_const e))%nat then
      let out := vzip nadd (qe_const e) (jac_mul (qe_lin e) x) in
      match qe_quad e with
      | [] => Val out
      | _ => if (length out =? length (qe_quad e))%nat
             then Val (map (fun p => fst p + quad_value (snd p) x) (combine out (qe_quad e))) else Bad
      end
    else Bad.
  (** QuadExprs::create, 172-221; the objective fields are left alone *)
  Definition dense_row (r : list T) : srow T := combine (seq 0 (length r)) r.
  Definition dense_of (n : nat) (r : srow T) : list T := map (coeff r) (seq 0 n).
  Definition quad_create1 (n : nat) (c : T) (jr : srow T) (h : list (srow T)) (x : list T) : T * srow T * list (srow T) :=
    if (list_sum (map (@length _) h) =? 0)%nat then (c, [], [])
    else let hx := jac_mul h x in
         (c + ndec 5 (-1) * vdot x hx, dense_row (vzip nsub (dense_of n jr) hx),
          map (map (fun cv => (fst cv, ndec 5 (-1) * snd cv))) h).
  Definition qe_create (n : nat) (old : quads) (f : list T) (j : list (srow T)) (hs : list (list (srow T))) (x : list T) : res quads :=
    if ((length j =? length f) && (length hs =? length f) && (length x =? n))%nat%bool then
      let cs := vzip nsub f (jac_mul j x) in
      let l := map (fun p => quad_create1 n (fst p) (fst (snd p)) (snd (snd p)) x) (combine cs (combine j hs)) in
      Val {| qe_const := map (fun p => fst (fst p)) l; qe_lin := map (fun p => snd (fst p)) l; qe_quad := map snd l;
             qe_obj_lin := qe_obj_lin old; qe_obj_quad := qe_obj_quad old |}
    else Bad.
End Exprs.
Arguments affs : clear implicits.
Arguments quads : clear implicits.
