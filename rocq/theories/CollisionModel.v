(** * Model of the collision result bookkeeping

    trajopt_common/src/collision_types.cpp, trajopt_common/src/collision_utils.cpp,
    trajopt_ifopt/src/constraints/collision/{discrete,continuous}_collision_evaluators.cpp,
    {discrete,continuous}_collision_constraint.cpp, weighted_average_methods.cpp.

    The contact checker, the kinematics and the environment are inputs: a contact is a record, and
    the gradient of a contact is given by a function.  std::array<_, 2> is a pair, addressed by a
    [bool] ([false] = [0], [true] = [1]).  A failed assertion is [Undef], a C++ exception is
    [Ok None].  Link names are numbers (only their order and equality matter). *)
From Coq Require Import List ZArith Bool Arith.
From Verif Require Import Num Common.
Import ListNotations.

Definition side {A} (p : A * A) (i : bool) : A := if i then snd p else fst p.
Definition set_side {A} (p : A * A) (i : bool) (a : A) : A * A := if i then (fst p, a) else (a, snd p).

(** tesseract ContinuousCollisionType *)
Inductive cctype := CCNone | CCTime0 | CCTime1 | CCBetween.
Definition cceqb (a b : cctype) : bool :=
  match a, b with CCNone, CCNone | CCTime0, CCTime0 | CCTime1, CCTime1 | CCBetween, CCBetween => true | _, _ => false end.

Section Collision.
  Context {T : Type} `{Num T}.
  Local Open Scope num_scope.
  (** std::numeric_limits<double>::lowest() *)
  Variable lowest : T.

  (** LinkGradientResults, collision_types.h 169-191; translation_vector and jacobian are only
      intermediate values and left out *)
  Record lgrad := { has_gradient : bool; gradient : list T; gscale : T; gcc : cctype }.

  (** GradientResults, collision_types.h 194-217 *)
  Record gres := { gr_err : T; gr_errb : T; gr_grads : lgrad * lgrad; gr_cc : lgrad * lgrad }.

  (** LinkMaxError, collision_types.h 219-252 *)
  Record lerr := { has_error : bool * bool; lerror : T * T; lerrb : T * T }.

  (** GradientResultsSet, collision_types.h 255-310 *)
  Record gset := {
    gs_key : nat * nat; gs_shape : Z * Z; gs_coeff : T; gs_cont : bool;
    gs_max : lerr * lerr; gs_results : list gres
  }.

  Definition lerr_new : lerr :=
    {| has_error := (false, false); lerror := (lowest, lowest); lerrb := (lowest, lowest) |}.
  Definition gset_new (key : nat * nat) (shape : Z * Z) (coeff : T) (cont : bool) : gset :=
    {| gs_key := key; gs_shape := shape; gs_coeff := coeff; gs_cont := cont;
       gs_max := (lerr_new, lerr_new); gs_results := [] |}.

  (** one slot of GradientResultsSet::add, collision_types.cpp 179-182 and 188-191 *)
  Definition upd_slot (m : lerr) (t : bool) (r : gres) : lerr :=
    {| has_error := set_side (has_error m) t true;
       lerror := set_side (lerror m) t (nmax (side (lerror m) t) (gr_err r));
       lerrb := set_side (lerrb m) t (nmax (side (lerrb m) t) (gr_errb r)) |}.

  (** body of the loop of add for link [i], 171-192 *)
  Definition add_link (r : gres) (m : lerr * lerr) (i : bool) : lerr * lerr :=
    let g := side (gr_grads r) i in
    if has_gradient g then
      let m := if negb (cceqb (gcc g) CCTime1) then set_side m i (upd_slot (side m i) false r) else m in
      if negb (cceqb (gcc g) CCTime0) then set_side m i (upd_slot (side m i) true r) else m
    else m.

  (** GradientResultsSet::add, 169-196 *)
  Definition gs_add (s : gset) (r : gres) : gset :=
    {| gs_key := gs_key s; gs_shape := gs_shape s; gs_coeff := gs_coeff s; gs_cont := gs_cont s;
       gs_max := fold_left (add_link r) [false; true] (gs_max s);
       gs_results := gs_results s ++ [r] |}.

  (** the six getters, 199-329: [slots] are the (link, time) slots inspected, in order, [val] is
      lerror or lerrb *)
  Definition get_max (val : lerr -> T * T) (slots : list (bool * bool)) (s : gset) : outcome (option T) :=
    let '(e, found) := fold_left (fun st it =>
      let m := side (gs_max s) (fst it) in
      if side (has_error m) (snd it) && (side (val m) (snd it) >? fst st)
      then (side (val m) (snd it), true) else st) slots (lowest, false) in
    if negb found then Ok None
    else if e >? lowest / nofZ 2 then Ok (Some e) else Undef.

  Definition slots_all : list (bool * bool) := [(false, false); (false, true); (true, false); (true, true)].
  Definition slots_t (t : bool) : list (bool * bool) := [(false, t); (true, t)].
  Definition getMaxError := get_max lerror slots_all.
  Definition getMaxErrorT (t : bool) := get_max lerror (slots_t t).
  Definition getMaxErrorWithBuffer := get_max lerrb slots_all.
  Definition getMaxErrorWithBufferT (t : bool) := get_max lerrb (slots_t t).

  (** ** CollisionCoeffData, collision_types.cpp 30-73 *)
  (** tesseract::common::makeOrderedLinkPair *)
  Definition ordered_pair (a b : nat) : nat * nat := if (a <=? b)%nat then (a, b) else (b, a).
  Definition paireqb (p q : nat * nat) : bool := (fst p =? fst q)%nat && (snd p =? snd q)%nat.

  Record coeffs := { cd_default : T; cd_table : list ((nat * nat) * T); cd_zero : list (nat * nat) }.
  Inductive coeff_op := SetDefault (c : T) | SetCoeff (a b : nat) (c : T).

  (** tesseract::common::almostEqualRelativeAndAbs(a, b) with its default tolerances 1e-6 and
      numeric_limits<double>::epsilon() *)
  Definition almost_equal (a b : T) : bool :=
    let diff := nabs (a - b) in
    if diff <=? ndec 1 (-6) then true
    else diff <=? nmax (nabs a) (nabs b) * (none_ / nofZ (2 ^ 52)).

  Fixpoint pfind {A} (k : nat * nat) (l : list ((nat * nat) * A)) : option A :=
    match l with [] => None | (k', a) :: r => if paireqb k k' then Some a else pfind k r end.
  Definition perase {A} (k : nat * nat) (l : list ((nat * nat) * A)) :=
    filter (fun e => negb (paireqb k (fst e))) l.

  Definition coeff_step (d : coeffs) (o : coeff_op) : coeffs :=
    match o with
    | SetDefault c => {| cd_default := c; cd_table := cd_table d; cd_zero := cd_zero d |}
    | SetCoeff a b c =>
        let k := ordered_pair a b in
        {| cd_default := cd_default d;
           cd_table := (k, c) :: perase k (cd_table d);
           cd_zero := if almost_equal c nzero
                      then (if existsb (paireqb k) (cd_zero d) then cd_zero d else k :: cd_zero d)
                      else filter (fun k' => negb (paireqb k k')) (cd_zero d) |}
    end.
  Definition coeff_new (c : T) : coeffs := {| cd_default := c; cd_table := []; cd_zero := [] |}.
  Definition coeff_run (d : coeffs) (os : list coeff_op) : coeffs := fold_left coeff_step os d.
  Definition getCollisionCoeff (d : coeffs) (a b : nat) : T :=
    match pfind (ordered_pair a b) (cd_table d) with Some c => c | None => cd_default d end.
  Definition isZeroPair (d : coeffs) (a b : nat) : bool := existsb (paireqb (ordered_pair a b)) (cd_zero d).

  (** ** Contacts *)
  (** the fields of tesseract ContactResult that are used here *)
  Record contact := {
    ct_dist : T; ct_shape : Z * Z; ct_sub : Z * Z; ct_cc : cctype * cctype; ct_id : nat
  }.

  (** removeInvalidContactResults, collision_utils.cpp 73-113: the predicate of std::remove_if *)
  Definition invalid_contact (margin buffer : T) (v0 v1 : bool) (r : contact) : bool :=
    let free0 i := negb (cceqb (side (ct_cc r) i) CCNone) && negb (cceqb (side (ct_cc r) i) CCTime0) in
    let free1 i := negb (cceqb (side (ct_cc r) i) CCNone) && negb (cceqb (side (ct_cc r) i) CCTime1) in
    if ct_dist r >? margin + buffer then true
    else if negb v0 && negb v1 then false
    else if v0 && (free0 false || free0 true) then false
    else if v1 && (free1 false || free1 true) then false
    else true.
  Definition removeInvalidContactResults (margin buffer : T) (v0 v1 : bool) (l : list contact) : list contact :=
    filter (fun r => negb (invalid_contact margin buffer v0 v1 r)) l.

  (** CollisionEvaluator::removeInvalidContactResults, trajopt/src/collision_terms.cpp 558-600; used
      for the assertion at 1103-1115 (and 871-878) that both filters keep equally many contacts.
      START_FREE_END_FREE is (false,false), START_FIXED_END_FREE (true,false), START_FREE_END_FIXED
      (false,true); any other type throws ([None]). *)
  Definition invalid_contact_old (margin buffer : T) (v0 v1 : bool) (r : contact) : option bool :=
    let at_ t := cceqb (fst (ct_cc r)) t || cceqb (snd (ct_cc r)) t in
    let far := ct_dist r >? margin + buffer in
    match v0, v1 with
    | false, false => Some far
    | true, false => Some (at_ CCTime0 || far)
    | false, true => Some (at_ CCTime1 || far)
    | true, true => None
    end.

  (** the filter lambda of the evaluators, continuous 187-203 (and 416-434), discrete 167-187 (there
      with neither end fixed) *)
  Definition contact_filter (d : coeffs) (margin : nat * nat -> T) (buffer : T) (v0 v1 : bool)
      (p : (nat * nat) * list contact) : (nat * nat) * list contact :=
    if existsb (paireqb (fst p)) (cd_zero d) then (fst p, [])
    else (fst p, removeInvalidContactResults (margin (fst p)) buffer v0 v1 (snd p)).

  (** ** Gradient result sets of all contacts *)
  (** cantorHash enters as the function [key] from (shape, subshape) to numbers, see below *)
  Variable key : Z -> Z -> Z.
  (** getGradient / calcGradientData: from link pair and contact *)
  Variable grad : nat * nat -> contact -> gres.

  Definition zpairltb (p q : Z * Z) : bool :=
    (fst p <? fst q)%Z || ((fst p =? fst q)%Z && (snd p <? snd q)%Z).
  Definition zpaireqb (p q : Z * Z) : bool := (fst p =? fst q)%Z && (snd p =? snd q)%Z.

  (** shape_grs[try_emplace] followed by add, continuous 124-144 (and 359-379), discrete 115-133; the map is kept
      ordered by shape key *)
  Fixpoint shape_insert (k : Z * Z) (fresh : gset) (r : gres) (l : list gset) : list gset :=
    match l with
    | [] => [gs_add fresh r]
    | s :: rest =>
        if zpaireqb k (gs_shape s) then gs_add s r :: rest
        else if zpairltb k (gs_shape s) then gs_add fresh r :: s :: rest
        else s :: shape_insert k fresh r rest
    end.

  Definition shape_key (c : contact) : Z * Z :=
    (key (fst (ct_shape c)) (fst (ct_sub c)), key (snd (ct_shape c)) (snd (ct_sub c))).

  Definition pair_sets (d : coeffs) (cont : bool) (p : (nat * nat) * list contact) : list gset :=
    fold_left (fun l c =>
      shape_insert (shape_key c)
        (gset_new (fst p) (shape_key c) (getCollisionCoeff d (fst (fst p)) (snd (fst p))) cont)
        (grad (fst p) c) l) (snd p) [].

  (** the loop over the contact results map, continuous 114-147 (and 349-382), discrete 103-138 *)
  Definition all_sets (d : coeffs) (cont : bool) (m : list ((nat * nat) * list contact)) : list gset :=
    flat_map (pair_sets d cont) m.

  (** comparators: discrete 140-147 (std::array operator> is lexicographic), continuous 149-160 (and 384-395).
      An exception inside the comparator is [None]. *)
  Definition cmp_discrete (a b : gset) : bool :=
    let x := lerror (fst (gs_max a)) in let y := lerror (fst (gs_max b)) in
    if fst y <? fst x then true else if fst x <? fst y then false else snd y <? snd x.

  Definition cont_measure (v0 v1 : bool) (s : gset) : outcome (option T) :=
    if negb v0 && negb v1 then getMaxErrorWithBuffer s
    else if negb v0 then getMaxErrorWithBufferT false s
    else getMaxErrorWithBufferT true s.
  Definition cmp_continuous (v0 v1 : bool) (a b : gset) : option bool :=
    match cont_measure v0 v1 a, cont_measure v0 v1 b with
    | Ok (Some x), Ok (Some y) => Some (x >? y)
    | _, _ => None
    end.

  (** ** Weighted averages, weighted_average_methods.cpp 31-107; [t] selects T0 / T1 *)
  Definition vplus (a b : list T) : list T := map (fun p => fst p + snd p) (combine a b).

  Definition wavg_link (t : bool) (s : gset) (me : T) (r : gres)
      (st : outcome (T * list T * nat)) (i : bool) : outcome (T * list T * nat) :=
    obind st (fun '(total, v, cnt) =>
      let g := side (if t then gr_cc r else gr_grads r) i in
      if has_gradient g && negb (cceqb (gcc g) (if t then CCTime0 else CCTime1)) then
        if side (lerrb (side (gs_max s) i)) t >? nzero then
          if side (has_error (side (gs_max s) i)) t then
            let w := nmax (gr_errb r) nzero / me in
            if w <? nzero then Undef
            else Ok (total + w, vplus v (vscale w (vscale (gscale g) (gradient g))), S cnt)
          else Undef
        else Ok (total, v, cnt)
      else Ok (total, v, cnt)).

  Definition wavg (t : bool) (s : gset) (me : T) (size : nat) : outcome (list T) :=
    let zero := repeat nzero size in
    match gs_results s with
    | [] => Ok zero
    | rs =>
        if negb (me >? nzero) then Undef
        else obind (fold_left (fun st r => fold_left (wavg_link t s me r) [false; true] st) rs (Ok (nzero, zero, 0%nat)))
          (fun '(total, v, cnt) =>
             if (cnt =? 0)%nat then Ok v
             else if negb (total >? nzero) then Undef
             else Ok (vscale (none_ / total) v))
    end.

  (** ** Constraint rows *)
  (** DiscreteCollisionConstraint::getValues, discrete_collision_constraint.cpp 90-108; [m] rows.
      An exception from a getter is [Ok None]. *)
  Fixpoint gather {A} (l : list (outcome (option A))) : outcome (option (list A)) :=
    match l with
    | [] => Ok (Some [])
    | x :: r => obind x (fun a => match a with None => Ok None | Some a =>
                obind (gather r) (fun b => Ok (match b with None => None | Some b => Some (a :: b) end)) end)
    end.
  Definition pad (m : nat) (d : T) (l : list T) : list T := l ++ repeat d (m - length l).
  Definition discrete_values (m : nat) (buffer : T) (sets : list gset) : outcome (option (list T)) :=
    obind (gather (map (getMaxErrorT false) (firstn m sets)))
      (fun o => Ok (option_map (pad m (nopp buffer)) o)).

  (** ContinuousCollisionConstraint::getValues, continuous_collision_constraint.cpp 107-146 *)
  Definition has_t (t : bool) (s : gset) : bool :=
    side (has_error (fst (gs_max s))) t || side (has_error (snd (gs_max s))) t.
  Definition continuous_value (v0 v1 : bool) (buffer : T) (s : gset) : outcome (option T) :=
    if negb v0 && negb v1 then getMaxError s
    else let t := v0 in
      if has_t t s then getMaxErrorT t s else Ok (Some (nopp buffer)).
  Definition continuous_values (v0 v1 : bool) (m : nat) (buffer : T) (sets : list gset) : outcome (option (list T)) :=
    obind (gather (map (continuous_value v0 v1 buffer) (firstn m sets)))
      (fun o => Ok (option_map (pad m (nopp buffer)) o)).

  (** one Jacobian row of DiscreteCollisionConstraint::getJacobian, 115-140, without the column offset *)
  Definition discrete_jac_row (s : gset) (n : nat) : outcome (option (list T)) :=
    obind (getMaxErrorWithBufferT false s) (fun o => match o with None => Ok None | Some me =>
      obind (wavg false s me n) (fun v => Ok (Some (map (fun x => nopp none_ * x) v))) end).

  (** one Jacobian row of DiscreteCollisionConstraintD::getJacobian, 227-270 *)
  Definition discreteD_jac_row (r : gres) : outcome (list T) :=
    let g0 := fst (gr_grads r) in let g1 := snd (gr_grads r) in
    if has_gradient g0 && has_gradient g1
    then Ok (map (fun x => nopp none_ * x) (vplus (gradient g0) (gradient g1)))
    else if has_gradient g0 then Ok (map (fun x => nopp none_ * x) (gradient g0))
    else if has_gradient g1 then Ok (map (fun x => nopp none_ * x) (gradient g1))
    else Undef.

  (** coeffs_ after update(), discrete_collision_constraint.cpp 81-83, continuous 99-101: only the
      first rows are written, the others keep their previous content *)
  Definition update_coeffs (old : list T) (sets : list gset) : list T :=
    let m := length old in
    map gs_coeff (firstn m sets) ++ skipn (length (firstn m sets)) old.
End Collision.

Arguments lgrad : clear implicits.
Arguments gres : clear implicits.
Arguments lerr : clear implicits.
Arguments gset : clear implicits.
Arguments coeffs : clear implicits.
Arguments coeff_op : clear implicits.
Arguments contact : clear implicits.

(** ** Interpolation between two states
    Eigen::VectorXd::LinSpaced(cnt, lo, hi) (Eigen 3.4 linspaced_op_impl, floating point): the step
    is counted from the end of larger magnitude; both ends are exact. *)
Section Interp.
  Context {T : Type} `{Num T}.
  Local Open Scope num_scope.
  Variable nsqrt : T -> T.     (* std::sqrt *)
  Variable nceil : T -> Z.     (* static_cast<long>(std::ceil(x)) *)

  Definition lin_spaced (cnt : nat) (lo hi : T) : list T :=
    let lo := if (cnt =? 1)%nat then hi else lo in
    let size1 := if (cnt =? 1)%nat then 1%nat else (cnt - 1)%nat in
    let step := if (cnt =? 1)%nat then nzero else (hi - lo) / nofZ (Z.of_nat size1) in
    let flip := nabs hi <? nabs lo in
    map (fun i => if flip
                  then (if (i =? 0)%nat then lo else hi - nofZ (Z.of_nat (size1 - i)) * step)
                  else (if (i =? size1)%nat then hi else lo + nofZ (Z.of_nat i) * step)) (seq 0 cnt).

  (** (dof_vals1 - dof_vals0).norm() *)
  Definition vnorm (v : list T) : T := nsqrt (vsum (map (fun x => x * x) v)).
  Definition vminus (a b : list T) : list T := map (fun p => fst p - snd p) (combine a b).

  (** rows of subtraj: column [i] is LinSpaced(cnt, dof_vals0(i), dof_vals1(i)) *)
  Definition interp_rows (cnt : nat) (a b : list T) : list (list T) :=
    map (fun r => map (fun p => nth r (lin_spaced cnt (fst p) (snd p)) nzero) (combine a b)) (seq 0 cnt).

  Definition seg_cnt (dist lvs : T) : nat := Z.to_nat (nceil (dist / lvs) + 1).

  (** states checked by LVSContinuousCollisionEvaluator, continuous_collision_evaluators.cpp 171-237
      (single_timestep: type CONTINUOUS), and by trajopt's CastCollisionEvaluator,
      collision_terms.cpp 1077-1172 (never single) *)
  Definition states_continuous (single : bool) (lvs : T) (a b : list T) : list (list T) :=
    let dist := vnorm (vminus b a) in
    if negb single && (dist >? lvs) then interp_rows (seg_cnt dist lvs) a b else [a; b].

  (** states checked by LVSDiscreteCollisionEvaluator, continuous_collision_evaluators.cpp 436-450, and
      by trajopt's DiscreteCollisionEvaluator, collision_terms.cpp 844-854 *)
  Definition states_discrete (lvs : T) (a b : list T) : list (list T) :=
    let dist := vnorm (vminus b a) in
    interp_rows (if dist >? lvs then seg_cnt dist lvs else 2%nat) a b.
End Interp.

(** ** cantorHash, collision_utils.cpp 64-71
    [shape_id + subshape_id] is int arithmetic (overflow is undefined), the products are double
    arithmetic, evaluated from the left; [trunc] is the conversion double -> size_t. *)
Definition int_max : Z := 2 ^ 31 - 1.
Definition cantorHash {T} `{Num T} (trunc : T -> Z) (shape sub : Z) : outcome Z :=
  if (shape <? 0)%Z then Undef
  else if (sub <? 0)%Z then Ok shape
  else if (shape + sub + 1 >? int_max)%Z then Undef
  else Ok (trunc (nadd (nmul (nmul (ndiv none_ (nofZ 2)) (nofZ (shape + sub))) (nofZ (shape + sub + 1))) (nofZ sub))).

(** truncation of a finite binary64 *)
Definition f64_trunc (x : f64) : Z :=
  match x with
  | SpecFloat.S754_finite s m e =>
      let a := if (0 <=? e)%Z then (Zpos m * 2 ^ e)%Z else (Zpos m / 2 ^ (- e))%Z in
      if s then (- a)%Z else a
  | _ => 0%Z
  end.
