(** * Model of the collision evaluators: which poses are checked, what is recorded, and the gradient of a contact

    Code: trajopt_ifopt/src/constraints/collision/discrete_collision_evaluators.cpp (D below),
    continuous_collision_evaluators.cpp (L below), trajopt/src/collision_terms.cpp (O below), and
    trajopt_common/src/collision_utils.cpp 116-221.

    Links are numbers, poses an arbitrary type [P].  The contact manager is the poses it was given last: for each link
    the pose at the start and at the end of the motion (twice the same for the discrete manager); a contact test is a
    function of them.  Testing does not move anything, so the tests of a call are listed first and their results are
    collected afterwards.  Transform maps (TransformMap) are partial functions; operator[] on a missing name would
    create an uninitialised transform and is [Undef].  Left out: the assertion that the map of results is empty at
    first, logging and plotting. *)
From Coq Require Import List ZArith Bool Arith.
From Verif Require TrajoptModel.
From Verif Require Import Num Common CollisionModel.
Import ListNotations.

Section Eval.
  Context {T : Type} {NT : Num T} {P : Type}.
  Local Open Scope num_scope.
  Variable nsqrt : T -> T.
  Variable nceil : T -> Z.

  (** ** Poses *)
  Definition tmap := nat -> option P.
  Definition no_poses : tmap := fun _ => None.
  (** get_state_fn_ and calcFwdKin: overwrite the entries of the links they know, keep the others *)
  Definition get_state (fk : list T -> nat -> option P) (q : list T) (old : tmap) : tmap :=
    fun l => match fk q l with Some p => Some p | None => old l end.

  Definition mgr := nat -> P * P.
  (** setCollisionObjectsTransform for one link *)
  Definition set1 (l : nat) (p : P * P) (m : mgr) : mgr := fun l' => if (l' =? l)%nat then p else m l'.
  (** the loops over link names of the newer evaluators: D 158-163, L 183-184, 412-413, 462-463 *)
  Fixpoint set_links (ls : list nat) (t : tmap) (m : mgr) : outcome mgr :=
    match ls with
    | [] => Ok m
    | l :: ls => match t l with None => Undef | Some p => set_links ls t (set1 l (p, p) m) end
    end.
  (** L 226-228, 243-245 *)
  Fixpoint set_links2 (ls : list nat) (t0 t1 : tmap) (m : mgr) : outcome mgr :=
    match ls with
    | [] => Ok m
    | l :: ls => match t0 l, t1 l with Some p, Some p' => set_links2 ls t0 t1 (set1 l (p, p') m) | _, _ => Undef end
    end.
  (** the loops of the older evaluators, which fill a map kept between calls: O 661-665, 838-839, 891-892, 1086-1087,
      1138-1142, 1161-1165 *)
  Fixpoint copy_links (ls : list nat) (t u : tmap) : outcome tmap :=
    match ls with
    | [] => Ok u
    | l :: ls => match t l with None => Undef | Some p => copy_links ls t (fun l' => if (l' =? l)%nat then Some p else u l') end
    end.
  (** setCollisionObjectsTransform with one map, with two maps of the same links *)
  Definition set_map (u : tmap) (m : mgr) : mgr := fun l => match u l with Some p => (p, p) | None => m l end.
  Definition set_map2 (u0 u1 : tmap) (m : mgr) : mgr :=
    fun l => match u0 l, u1 l with Some p, Some p' => (p, p') | _, _ => m l end.

  (** what an evaluator keeps between calls: transforms_cache0_, transforms_cache1_ (thread local in L, local in D),
      and for the older ones transforms_cache0_update_, transforms_cache1_update_, transforms_diff_update_ *)
  Record estate := { s_c0 : tmap; s_c1 : tmap; s_u0 : tmap; s_u1 : tmap; s_ud : tmap; s_m : mgr }.

  (** the configuration: manip_active_link_names_, diff_active_link_names_ (empty unless the environment is dynamic),
      get_state_fn_, manip_->calcFwdKin, coefficients, margins (before the buffer is added), buffer,
      longest_valid_segment_length and single_timestep_ *)
  Record econf := {
    e_active : list nat; e_diff : list nat;
    e_state : list T -> nat -> option P; e_fk : list T -> nat -> option P;
    e_coeffs : coeffs T; e_margin : nat * nat -> T; e_buffer : T; e_lvs : T; e_single : bool
  }.

  (** std::sort and std::set_difference of the names, D 62-69, L 70-77 and 305-312, O 403-409 *)
  Definition diff_links (env manip : list nat) : list nat :=
    filter (fun l => negb (existsb (Nat.eqb l) manip)) env.

  (** the links outside the manipulator, L 179-185 and 408-414 (newer), O 833-842 and 1081-1090 (older) *)
  Definition place_diff (older : bool) (c : econf) (a : list T) (s : estate) : outcome estate :=
    match e_diff c with
    | [] => Ok s
    | _ => let c0 := get_state (e_state c) a (s_c0 s) in
           if older
           then obind (copy_links (e_diff c) c0 (s_ud s)) (fun u =>
                  Ok {| s_c0 := c0; s_c1 := s_c1 s; s_u0 := s_u0 s; s_u1 := s_u1 s; s_ud := u; s_m := set_map u (s_m s) |})
           else obind (set_links (e_diff c) c0 (s_m s)) (fun m =>
                  Ok {| s_c0 := c0; s_c1 := s_c1 s; s_u0 := s_u0 s; s_u1 := s_u1 s; s_ud := s_ud s; s_m := m |})
    end.
  (** one discrete check at [q], L 460-463 (newer), O 889-894 (older) *)
  Definition place_at (older : bool) (c : econf) (q : list T) (s : estate) : outcome estate :=
    let c0 := get_state (e_state c) q (s_c0 s) in
    if older
    then obind (copy_links (e_active c) c0 (s_u0 s)) (fun u =>
           Ok {| s_c0 := c0; s_c1 := s_c1 s; s_u0 := u; s_u1 := s_u1 s; s_ud := s_ud s; s_m := set_map u (s_m s) |})
    else obind (set_links (e_active c) c0 (s_m s)) (fun m =>
           Ok {| s_c0 := c0; s_c1 := s_c1 s; s_u0 := s_u0 s; s_u1 := s_u1 s; s_ud := s_ud s; s_m := m |}).
  (** one cast from [q] to [q'], L 223-228 and 241-245 (newer: get_state_fn_), O 1135-1144 and 1158-1167 (older:
      manip_->calcFwdKin) *)
  Definition place_cast (older : bool) (c : econf) (q q' : list T) (s : estate) : outcome estate :=
    let fk := if older then e_fk c else e_state c in
    let c0 := get_state fk q (s_c0 s) in
    let c1 := get_state fk q' (s_c1 s) in
    if older
    then obind (copy_links (e_active c) c0 (s_u0 s)) (fun u0 => obind (copy_links (e_active c) c1 (s_u1 s)) (fun u1 =>
           Ok {| s_c0 := c0; s_c1 := c1; s_u0 := u0; s_u1 := u1; s_ud := s_ud s; s_m := set_map2 u0 u1 (s_m s) |}))
    else obind (set_links2 (e_active c) c0 c1 (s_m s)) (fun m =>
           Ok {| s_c0 := c0; s_c1 := c1; s_u0 := s_u0 s; s_u1 := s_u1 s; s_ud := s_ud s; s_m := m |}).
  (** the newer continuous evaluators clear the caches first, L 176-177 and 406 *)
  Definition clear_caches (older : bool) (s : estate) : estate :=
    if older then s
    else {| s_c0 := no_poses; s_c1 := no_poses; s_u0 := s_u0 s; s_u1 := s_u1 s; s_ud := s_ud s; s_m := s_m s |}.

  (** SingleTimestepCollisionEvaluator::calcCollisionsHelper, D 150-165, and CalcCollisions, O 655-669: the poses of
      the contact test *)
  Definition single_tests (older : bool) (c : econf) (q : list T) (s : estate) : outcome (estate * list mgr) :=
    if older
    then let c0 := get_state (e_state c) q (s_c0 s) in
         obind (copy_links (e_diff c) c0 (s_u0 s)) (fun u => obind (copy_links (e_active c) c0 u) (fun u =>
           let m := set_map u (s_m s) in
           Ok ({| s_c0 := c0; s_c1 := s_c1 s; s_u0 := u; s_u1 := s_u1 s; s_ud := s_ud s; s_m := m |}, [m])))
    else let c0 := get_state (e_state c) q no_poses in
         obind (set_links (e_diff c) c0 (s_m s)) (fun m => obind (set_links (e_active c) c0 m) (fun m =>
           Ok ({| s_c0 := s_c0 s; s_c1 := s_c1 s; s_u0 := s_u0 s; s_u1 := s_u1 s; s_ud := s_ud s; s_m := m |}, [m]))).

  (** the loops over the interpolated states *)
  Fixpoint at_all (older : bool) (c : econf) (rows : list (list T)) (s : estate) : outcome (estate * list mgr) :=
    match rows with
    | [] => Ok (s, [])
    | q :: rows => obind (place_at older c q s) (fun s => obind (at_all older c rows s) (fun '(s', ms) => Ok (s', s_m s :: ms)))
    end.
  Fixpoint cast_all (older : bool) (c : econf) (rows : list (list T)) (s : estate) : outcome (estate * list mgr) :=
    match rows with
    | q :: ((q' :: _) as rest) =>
        obind (place_cast older c q q' s) (fun s => obind (cast_all older c rest s) (fun '(s', ms) => Ok (s', s_m s :: ms)))
    | _ => Ok (s, [])
    end.
  (** LVSDiscreteCollisionEvaluator::calcCollisionsHelper, L 400-474, DiscreteCollisionEvaluator::CalcCollisions, O 823-905 *)
  Definition discrete_tests (older : bool) (c : econf) (a b : list T) (s : estate) : outcome (estate * list mgr) :=
    obind (place_diff older c a (clear_caches older s)) (at_all older c (states_discrete nsqrt nceil (e_lvs c) a b)).
  (** LVSContinuousCollisionEvaluator::calcCollisionsHelper, L 165-251, CastCollisionEvaluator::CalcCollisions,
      O 1071-1173 (which ignores single_timestep_); without interpolation the rows are the two end states *)
  Definition is_single (older : bool) (c : econf) : bool := if older then false else e_single c.
  Definition cast_tests (older : bool) (c : econf) (a b : list T) (s : estate) : outcome (estate * list mgr) :=
    obind (place_diff older c a (clear_caches older s))
      (cast_all older c (states_continuous nsqrt nceil (is_single older c) (e_lvs c) a b)).
  Definition subdivided (older : bool) (c : econf) (a b : list T) : bool :=
    negb (is_single older c) && (vnorm nsqrt (vminus b a) >? e_lvs c).

  (** ** Contacts *)
  (** a ContactResult: the fields of [contact] (distance, shapes, cc_type), link_names, cc_time, transform,
      cc_transform, nearest_points_local and normal *)
  Record hit := {
    h_contact : contact T; h_links : nat * nat; h_time : T * T; h_tf : P * P; h_cctf : P * P;
    h_local : (T * T * T) * (T * T * T); h_normal : T * T * T
  }.
  (** ContactResultMap: ordered by link pair *)
  Definition rmap := list ((nat * nat) * list hit).
  Definition pairltb (p q : nat * nat) : bool := (fst p <? fst q)%nat || ((fst p =? fst q)%nat && (snd p <? snd q)%nat).
  Fixpoint rm_get (k : nat * nat) (m : rmap) : list hit :=
    match m with [] => [] | (k', hs) :: m => if paireqb k k' then hs else rm_get k m end.
  Fixpoint rm_add (k : nat * nat) (hs : list hit) (m : rmap) : rmap :=
    match m with
    | [] => [(k, hs)]
    | (k', hs') :: r =>
        if paireqb k k' then (k', hs' ++ hs) :: r
        else if pairltb k k' then (k, hs) :: m
        else (k', hs') :: rm_add k hs r
    end.

  (** ContactResultMap::addInterpolatedCollisionResults (tesseract, not part of /repo: recollected, not checked against its
      source), link [j] of one contact: moving
      links get the time within the whole motion; only the first and the last index keep Time0 and Time1 *)
  Definition stamp_time (i : nat) (dt t : T) : T :=
    if t <? nzero then nofZ (Z.of_nat i) * dt else nofZ (Z.of_nat i) * dt + t * dt.
  Definition stamp_type (i last : nat) (discrete : bool) (cc : cctype) : cctype :=
    if (i =? 0)%nat && (cceqb cc CCTime0 || discrete) then CCTime0
    else if (i =? last)%nat && (cceqb cc CCTime1 || discrete) then CCTime1
    else CCBetween.
  Definition is_active (active : list nat) (l : nat) : bool := existsb (Nat.eqb l) active.
  Definition stamp (active : list nat) (i last : nat) (dt : T) (discrete : bool) (h : hit) : hit :=
    let side_ {A} (f : A -> A) (p : A * A) :=
      (if is_active active (fst (h_links h)) then f (fst p) else fst p,
       if is_active active (snd (h_links h)) then f (snd p) else snd p) in
    {| h_contact := {| ct_dist := ct_dist (h_contact h); ct_shape := ct_shape (h_contact h); ct_sub := ct_sub (h_contact h);
                       ct_cc := side_ (stamp_type i last discrete) (ct_cc (h_contact h)); ct_id := ct_id (h_contact h) |};
       h_links := h_links h; h_time := side_ (stamp_time i dt) (h_time h); h_tf := h_tf h;
       h_cctf := if discrete && (is_active active (fst (h_links h)) || is_active active (snd (h_links h))) then h_tf h else h_cctf h; h_local := h_local h; h_normal := h_normal h |}.

  (** the filter lambdas, L 187-203 and 416-434, O 857-880 and 1092-1116 (see CollisionModel.contact_filter) *)
  Definition hit_filter (c : econf) (v0 v1 : bool) (p : (nat * nat) * list hit) : list hit :=
    if existsb (paireqb (fst p)) (cd_zero (e_coeffs c)) then []
    else filter (fun h => negb (invalid_contact (e_margin c (fst p)) (e_buffer c) v0 v1 (h_contact h))) (snd p).
  (** those of the single time step evaluators, D 167-187, O 671-690 *)
  Definition near_filter (c : econf) (p : (nat * nat) * list hit) : list hit :=
    if existsb (paireqb (fst p)) (cd_zero (e_coeffs c)) then []
    else filter (fun h => negb (ct_dist (h_contact h) >? e_margin c (fst p) + e_buffer c)) (snd p).
  (** ContactResultMap::filter *)
  Definition filtered (f : (nat * nat) * list hit -> list hit) (m : rmap) : rmap := map (fun p => (fst p, f p)) m.

  (** addInterpolatedCollisionResults of one test; adding the contacts of an empty map adds nothing *)
  Definition add_interpolated (c : econf) (i last : nat) (discrete v0 v1 : bool) (sub acc : rmap) : rmap :=
    let dt := none_ / nofZ (Z.of_nat last) in
    fold_left (fun acc p =>
      match hit_filter c v0 v1 (fst p, map (stamp (e_active c) i last dt discrete) (snd p)) with
      | [] => acc
      | hs => rm_add (fst p) hs acc
      end) sub acc.
  Fixpoint collect (c : econf) (i last : nat) (discrete v0 v1 : bool) (tests : list rmap) (acc : rmap) : rmap :=
    match tests with
    | [] => acc
    | t :: tests => collect c (S i) last discrete v0 v1 tests (add_interpolated c i last discrete v0 v1 t acc)
    end.

  (** ContactManager::contactTest *)
  Variable test : mgr -> rmap.
  Definition single_results (c : econf) (ms : list mgr) : rmap :=
    match ms with m :: _ => filtered (near_filter c) (test m) | [] => [] end.
  (** last_state_idx is the number of states minus one: L 456 and O 883 *)
  Definition discrete_results (c : econf) (v0 v1 : bool) (ms : list mgr) : rmap :=
    collect c 0 (length ms - 1) true v0 v1 (map test ms) [].
  (** L 219 and O 1131; the loop stops one index before last_state_idx.  Without interpolation: L 247-249, O 1169-1171 *)
  Definition cast_results (older : bool) (c : econf) (a b : list T) (v0 v1 : bool) (ms : list mgr) : rmap :=
    if subdivided older c a b then collect c 0 (length ms) false v0 v1 (map test ms) []
    else match ms with m :: _ => filtered (hit_filter c v0 v1) (test m) | [] => [] end.

  (** a sequence of calls of one evaluator: which states, which ends are fixed *)
  Inductive ekind := KSingle | KDiscrete | KCast.
  Definition call (older : bool) (kind : ekind) (c : econf) (q : list T * list T * bool * bool) (s : estate)
      : outcome (estate * rmap) :=
    let '(a, b, v0, v1) := q in
    match kind with
    | KSingle => obind (single_tests older c a s) (fun '(s, ms) => Ok (s, single_results c ms))
    | KDiscrete => obind (discrete_tests older c a b s) (fun '(s, ms) => Ok (s, discrete_results c v0 v1 ms))
    | KCast => obind (cast_tests older c a b s) (fun '(s, ms) => Ok (s, cast_results older c a b v0 v1 ms))
    end.
  Fixpoint calls (older : bool) (kind : ekind) (c : econf) (qs : list (list T * list T * bool * bool)) (s : estate)
      : outcome (list rmap) :=
    match qs with
    | [] => Ok []
    | q :: qs => obind (call older kind c q s) (fun '(s, r) => obind (calls older kind c qs s) (fun rs => Ok (r :: rs)))
    end.
  (** a new evaluator with the poses of the contact manager it obtained *)
  Definition fresh (m : mgr) : estate :=
    {| s_c0 := no_poses; s_c1 := no_poses; s_u0 := no_poses; s_u1 := no_poses; s_ud := no_poses; s_m := m |}.

  (** ** Gradient of one contact *)
  Definition v3 := (T * T * T)%type.
  Definition dot_3 (x y : v3) : T := let '(x0, x1, x2) := x in let '(y0, y1, y2) := y in x0 * y0 + x1 * y1 + x2 * y2.
  Definition add_3 (x y : v3) : v3 := let '(x0, x1, x2) := x in let '(y0, y1, y2) := y in (x0 + y0, x1 + y1, x2 + y2).
  Definition opp_3 (x : v3) : v3 := let '(x0, x1, x2) := x in (nopp x0, nopp x1, nopp x2).
  Definition cross_3 (x y : v3) : v3 :=
    let '(x0, x1, x2) := x in let '(y0, y1, y2) := y in (x1 * y2 - x2 * y1, x2 * y0 - x0 * y2, x0 * y1 - x1 * y0).
  (** calcJacobian: one (linear, angular) column for each joint; link_transform.linear() * v *)
  Variable jac : list T -> nat -> list (v3 * v3).
  Variable rotate : P -> v3 -> v3.
  (** tesseract::common::jacobianChangeRefPoint and topRows(3) *)
  Definition at_point (r : v3) (cols : list (v3 * v3)) : list v3 := map (fun p => add_3 (fst p) (cross_3 (snd p) r)) cols.
  Definition link_of (h : hit) (j : bool) : nat := side (h_links h) j.

  (** calcGradient, collision_utils.cpp 116-173: scale and gradient of link [j] (the translation vector is the normal, negated
      for the first link); [t] is isTimestep1 *)
  Definition calc_gradient (debug : bool) (h : hit) (j : bool) (q : list T) (t : bool) : outcome (T * list T) :=
    let cc := side (ct_cc (h_contact h)) j in
    let u := side (h_time h) j in
    let none := cceqb cc CCNone in
    let tf := if none then side (h_tf h) j else if t then side (h_cctf h) j else side (h_tf h) j in
    let n := if j then h_normal h else opp_3 (h_normal h) in
    if debug && negb none && negb (((u >? nzero) || almost_equal u nzero) && ((u <? none_) || almost_equal u none_))
    then Undef
    else Ok (if none then none_ else if t then u else none_ - u,
             map (dot_3 n) (at_point (rotate tf (side (h_local h) j)) (jac q (link_of h j)))).
  (** the state at which getGradient evaluates the Jacobian, collision_utils.cpp 208-213 *)
  Definition contact_state (h : hit) (j : bool) (a b : list T) : list T :=
    match side (ct_cc (h_contact h)) j with
    | CCTime0 => a
    | CCTime1 => b
    | _ => map (fun p => fst p + (snd p - fst p) * side (h_time h) j) (combine a b)
    end.
  (** getGradient with two states, 192-221: gradients[j] ([t] = false), cc_gradients[j] ([t] = true) *)
  Definition gradient_new (debug : bool) (h : hit) (j : bool) (a b : list T) (t : bool) : outcome (T * list T) :=
    calc_gradient debug h j (contact_state h j a b) t.
  (** CollisionEvaluator::GetGradient with one state, O 203-250; CollisionsToDistanceExpressions, O 352-366, passes the
      values of vars0 ([t] = false) or vars1 ([t] = true) *)
  Definition gradient_old (debug : bool) (h : hit) (j : bool) (a b : list T) (t : bool) : outcome (T * list T) :=
    let cc := side (ct_cc (h_contact h)) j in
    let u := side (h_time h) j in
    let none := cceqb cc CCNone in
    let tf := if none then side (h_tf h) j else if t then side (h_cctf h) j else side (h_tf h) j in
    if debug && negb none && negb ((nzero <=? u) && (u <=? none_)) then Undef
    else Ok (if none then none_ else if t then u else none_ - u,
             map (fun col => (if j then none_ else nopp none_) * dot_3 (h_normal h) col)
               (at_point (rotate tf (side (h_local h) j)) (jac (if t then b else a) (link_of h j)))).
End Eval.

(** ** Construction *)
(** tesseract::collision::CollisionEvaluatorType *)
Inductive check_type := TNone | TDiscrete | TLvsDiscrete | TContinuous | TLvsContinuous.
(** the constructors: D 38-89 and O 602-648 (single), L 281-332 and O 744-814 (discrete), L 41-96 and O 989-1062 (cast).
    Only the older ones check the expression type. *)
Definition type_ok (kind : ekind) (t : check_type) : bool :=
  match kind, t with
  | KSingle, TDiscrete | KDiscrete, TLvsDiscrete | KCast, TContinuous | KCast, TLvsContinuous => true
  | _, _ => false
  end.
Definition ends_ok (kind : ekind) (e : TrajoptModel.ends) : bool :=
  match kind, e with KSingle, TrajoptModel.SingleStep => true | KSingle, _ => false | _, TrajoptModel.SingleStep => false | _, _ => true end.
Definition evaluator_new (older : bool) (kind : ekind) (t : check_type) (e : TrajoptModel.ends) : TrajoptModel.run unit :=
  if type_ok kind t && (negb older || ends_ok kind e) then TrajoptModel.Done tt else TrajoptModel.Thrown.
(** CollisionTermInfo::hatch, problem_description.cpp 1714-1837, with CollisionCost and CollisionConstraint,
    O 1250-1281 and 1335-1366: the kind of evaluator of a term *)
Definition hatch_kind (t : check_type) : ekind :=
  match t with TDiscrete => KSingle | TLvsDiscrete => KDiscrete | _ => KCast end.
Definition hatch_evaluators (t : check_type) (vars : ArrayModel.array nat) (n_dof first last : Z) (fixed : list Z) : TrajoptModel.run (list unit) :=
  TrajoptModel.rdo (TrajoptModel.collision_hatch (match t with TDiscrete => true | _ => false end) vars n_dof first last fixed) (fun cs =>
  TrajoptModel.rmap (fun c => evaluator_new true (hatch_kind t) t (TrajoptModel.ct_ends c)) cs).
(** single_timestep_, L 57 *)
Definition single_timestep (t : check_type) : bool := match t with TContinuous => true | _ => false end.
Arguments tmap : clear implicits.
Arguments mgr : clear implicits.
Arguments estate : clear implicits.
Arguments econf : clear implicits.
Arguments hit : clear implicits.
Arguments rmap : clear implicits.
