(** * Model of the collision terms of trajopt (trajopt/src/collision_terms.cpp)

    The contact checker and the kinematics are inputs: a contact carries, for each of its links,
    whether the link moves, when in the motion it is touched, and the gradient row
    (i == 0 ? -1 : 1) * normal^T * jacobian for the first and the second time step.  Margin and
    coefficient of its link pair are stored with it (getCollisionMargin, getCollisionCoeff are
    functions of the link names).  [debug] tells whether assertions are enabled. *)
From Coq Require Import List ZArith Bool Arith.
From Verif Require Import Num Common ScoExprModel ModelingModel CollisionModel.
Import ListNotations.

(** ** Cache, trajopt/include/trajopt/cache.hxx 7-35
    Keys are numbers; the vectors are value-initialised: keys 0, values null ([None]). *)
Section SimpleCache.
  Context {V : Type}.
  Record scache := { sc_m : nat; sc_keys : list Z; sc_vals : list (option V) }.
  Definition sc_new (bufsize : nat) : scache :=
    {| sc_m := 0; sc_keys := repeat 0%Z bufsize; sc_vals := repeat None bufsize |}.

  Fixpoint set_nth {A} (l : list A) (i : nat) (a : A) : list A :=
    match l, i with
    | [], _ => []
    | _ :: r, O => a :: r
    | x :: r, S i => x :: set_nth r i a
    end.

  (** put, 15-22; writing outside the vectors (bufsize 0) is undefined *)
  Definition sc_put (c : scache) (k : Z) (v : option V) : outcome scache :=
    if (sc_m c <? length (sc_keys c))%nat then
      Ok {| sc_m := if (S (sc_m c) =? length (sc_keys c))%nat then 0 else S (sc_m c);
            sc_keys := set_nth (sc_keys c) (sc_m c) k; sc_vals := set_nth (sc_vals c) (sc_m c) v |}
    else Undef.

  (** std::find *)
  Fixpoint sc_find (ks : list Z) (k : Z) : option nat :=
    match ks with [] => None | k' :: r => if (k' =? k)%Z then Some 0%nat else option_map S (sc_find r k) end.
  (** get, 24-28: [None] is nullptr, [Some None] points to a pair of null pointers *)
  Definition sc_get (c : scache) (k : Z) : option (option V) :=
    match sc_find (sc_keys c) k with None => None | Some i => Some (nth i (sc_vals c) None) end.
End SimpleCache.
Arguments scache : clear implicits.

(** ** CollisionEvaluator::GetContactResultCached, collision_terms.cpp 440-466
    [hash] is boost::hash_range over the values of GetVars() in x, [compute] is CalcCollisions
    (which also only depends on these values).  The last component tells whether the contact checker
    ran.  The caller dereferences the returned pointer: a null pointer is undefined behaviour. *)
Section Cached.
  Context {X V : Type}.
  Variable hash : X -> Z.
  Variable compute : X -> V.
  Definition cached (c : scache V) (x : X) : outcome (scache V * V * bool) :=
    match sc_get c (hash x) with
    | Some (Some v) => Ok (c, v, false)
    | Some None => Undef
    | None => obind (sc_put c (hash x) (Some (compute x))) (fun c => Ok (c, compute x, true))
    end.
  (** a sequence of queries, with their answers *)
  Fixpoint queries (c : scache V) (xs : list X) : outcome (scache V * list (V * bool)) :=
    match xs with
    | [] => Ok (c, [])
    | x :: xs => obind (cached c x) (fun '(c, v, b) => obind (queries c xs) (fun '(c, vs) => Ok (c, (v, b) :: vs)))
    end.
End Cached.

Section Terms.
  Context {T : Type} {NT : Num T}.

  Record tcontact := {
    tc_dist : T; tc_margin : T; tc_coeff : T;
    tc_active : bool * bool; tc_cc : cctype * cctype; tc_time : T * T;
    tc_row : bool -> list T * list T        (* time step -> gradient rows of both links *)
  }.

  (** GetGradient, 200-246: scale of link [i] at time step [t]; the asserted range is checked only
      for continuous contacts *)
  Definition tscale (debug : bool) (c : tcontact) (t i : bool) : outcome T :=
    if cceqb (side (tc_cc c) i) CCNone then Ok none_
    else
      let u := side (tc_time c) i in
      if debug && negb ((nzero <=? u) && (u <=? none_))%num then Undef
      else Ok (if t then u else (none_ - u)%num).

  (** loop body of CollisionsToDistanceExpressions, 343-354, for link [i] *)
  Definition inc_link (debug : bool) (vars : list nat) (x : list T) (t : bool) (c : tcontact)
      (e : outcome (aff T)) (i : bool) : outcome (aff T) :=
    obind e (fun e =>
      if side (tc_active c) i then
        obind (tscale debug c t i) (fun s =>
          let g := side (tc_row c t) i in
          let e := aff_inc e (var_dot (vscale s g) vars) in
          Ok (aff_inc_const e (s * vdot (map nopp g) (get_vec x vars))%num))
      else Ok e).

  (** CollisionsToDistanceExpressions, 322-362: expressions with margin and coefficient, skipping
      contacts of which no link moves *)
  Fixpoint to_exprs (debug : bool) (cs : list tcontact) (vars : list nat) (x : list T) (t : bool)
      : outcome (list (aff T * T * T)) :=
    match cs with
    | [] => Ok []
    | c :: cs =>
        obind (fold_left (inc_link debug vars x t c) [false; true] (Ok (aff_const nzero))) (fun e =>
        obind (to_exprs debug cs vars x t) (fun r =>
          Ok (if fst (tc_active c) || snd (tc_active c) then (e, tc_margin c, tc_coeff c) :: r else r)))
    end.

  Definition sizes_ok (debug : bool) (a b : nat) : bool := negb debug || (a =? b)%nat.

  (** CalcDistExpressionsSingleTimeStep, 540-556; the result of cleanupAff is discarded *)
  Definition exprs_single (debug : bool) (cs : list tcontact) (vars : list nat) (x : list T) : outcome (list (aff T * T * T)) :=
    obind (to_exprs debug cs vars x false) (fun es =>
      if sizes_ok debug (length cs) (length es)
      then Ok (map (fun p => (aff_inc_const (fst (fst (snd p))) (tc_dist (fst p)), snd (fst (snd p)), snd (snd p))) (combine cs es))
      else Undef).

  (** CalcDistExpressionsStartFree, EndFree, 468-506 ([t] = false, true) *)
  Definition exprs_one_free (debug t : bool) (cs : list tcontact) (vars : list nat) (x : list T) : outcome (list (aff T * T * T)) :=
    obind (to_exprs debug cs vars x t) (fun es =>
      if sizes_ok debug (length es) (length cs)
      then Ok (map (fun p => (aff_cleanup (aff_inc (aff_const (tc_dist (fst p))) (fst (fst (snd p)))), snd (fst (snd p)), snd (snd p))) (combine cs es))
      else Undef).

  (** CalcDistExpressionsBothFree, 508-538 *)
  Definition exprs_both_free (debug : bool) (cs : list tcontact) (vars0 vars1 : list nat) (x : list T) : outcome (list (aff T * T * T)) :=
    obind (to_exprs debug cs vars0 x false) (fun es0 =>
    obind (to_exprs debug cs vars1 x true) (fun es1 =>
      if sizes_ok debug (length es0) (length cs)
      then Ok (map (fun p =>
             let c := fst p in let e0 := fst (snd p) in let e1 := snd (snd p) in
             (aff_cleanup (aff_inc (aff_inc (aff_const (tc_dist c)) (fst (fst e0))) (fst (fst e1))), snd (fst e0), snd e0))
             (combine cs (combine es0 es1)))
      else Undef)).

  (** CollisionCost::convex, 1283-1304, and CollisionConstraint::convex, 1368-1389 *)
  Definition viol_of (p : aff T * T * T) : aff T := aff_dec (aff_const (snd (fst p))) (fst (fst p)).
  Definition cost_ops (es : list (aff T * T * T)) : list (op T) := map (fun p => OpHinge (viol_of p) (snd p)) es.
  Definition cnt_convex (es : list (aff T * T * T)) : ccnts T :=
    {| cc_eqs := []; cc_ineqs := map (fun p => aff_scale (viol_of p) (snd p)) es |}.

  (** CollisionConstraint::value, 1391-1412, and CollisionCost::value, 1306-1327 *)
  Definition coll_values (cs : list tcontact) : list T :=
    map (fun c => (pospart (tc_margin c - tc_dist c) * tc_coeff c)%num) cs.
  Definition coll_cost (cs : list tcontact) : T := fold_left nadd (coll_values cs) nzero.
End Terms.
Arguments tcontact : clear implicits.
