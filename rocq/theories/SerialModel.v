(** * Saving, loading and comparing the collision configuration

    trajopt_common/include/trajopt_common/yaml_extensions.h 40-137, cereal_serialization.h 15-31 and the comparisons of
    trajopt_common/src/collision_types.cpp 76-125.

    Simplified:
    - link names are numbers, as in CollisionModel; YAML scalars are what they denote, not their text (yaml-cpp writes doubles with
      enough digits to read them back);
    - of yaml-cpp there are: [as] for bool, int, double and std::string, the lookup of a member in a map (the first one with that
      name), begin/end of maps and sequences;
    - the contact manager and check configurations belong to tesseract: they are of any type, with their own functions for
      encoding, decoding, comparing and scaling margins;
    - std::unordered_map gives its entries in any order; the order is a parameter of what is written. *)
From Coq Require Import ZArith String List Bool Arith.
From Verif Require Import Num CollisionModel.
From Verif Require TrajoptModel.
Import ListNotations.
Import TrajoptModel (run, Done, Thrown, Assert, rdo, rmap).

Section Serial.
  Context {T : Type} {NT : Num T}.
  Local Open Scope num_scope.

  (** ** YAML nodes *)
  Inductive yaml := YNull | YBool (b : bool) | YInt (z : Z) | YNum (x : T) | YKey (s : string) | YName (n : nat) | YSeq (l : list yaml) | YMap (m : list (yaml * yaml)).
  (** the link name other scalars are, as texts *)
  Variable text_name : yaml -> nat.
  Definition as_bool (v : yaml) : run bool := match v with YBool b => Done b | _ => Thrown end.
  Definition as_int (v : yaml) : run Z := match v with YInt z => if ((- 2 ^ 31 <=? z) && (z <? 2 ^ 31))%Z then Done z else Thrown | _ => Thrown end.
  Definition as_double (v : yaml) : run T := match v with YInt z => Done (nofZ z) | YNum x => Done x | _ => Thrown end.
  Definition as_name (v : yaml) : run nat := match v with YName n => Done n | YSeq _ | YMap _ => Thrown | _ => Done (text_name v) end.
  Definition is_map (v : yaml) : bool := match v with YMap _ => true | _ => false end.
  (** node[name] on a map; [None] is an undefined node *)
  Fixpoint find_key (name : string) (m : list (yaml * yaml)) : option yaml :=
    match m with
    | [] => None
    | (YKey k, v) :: m => if String.eqb name k then Some v else find_key name m
    | _ :: m => find_key name m
    end.
  Definition get (name : string) (v : yaml) : option yaml := match v with YMap m => find_key name m | _ => None end.
  (** if (const YAML::Node& n = node[name]) x = n.as<A>(); *)
  Definition set_if {A} (name : string) (rd : yaml -> run A) (v : yaml) (old : A) : run A :=
    match get name v with Some w => rd w | None => Done old end.

  (** ** CollisionCoeffData *)
  (** convert<CollisionCoeffData>::encode, yaml_extensions.h 43-70; [entries] is the table in the order it is gone through.  The node
      made as a sequence becomes a map with the first key. *)
  Definition encode_pair (e : (nat * nat) * T) : yaml * yaml := (YSeq [YName (fst (fst e)); YName (snd (fst e))], YNum (snd e)).
  Definition encode_coeffs (default : T) (entries : list ((nat * nat) * T)) : yaml :=
    YMap ((YKey "default_coeff", YNum default) ::
          match entries with [] => [] | _ => [(YKey "pair_coeff_data"%string, YMap (map encode_pair entries))] end).
  (** the loop of decode, 83-91: [Done None] is "return false" *)
  Fixpoint decode_pairs (m : list (yaml * yaml)) (d : coeffs T) : run (option (coeffs T)) :=
    match m with
    | [] => Done (Some d)
    | (k, v) :: m =>
        match k with
        | YSeq [a; b] => rdo (as_name a) (fun a => rdo (as_name b) (fun b => rdo (as_double v) (fun c => decode_pairs m (coeff_step d (SetCoeff a b c)))))
        | _ => Done None
        end
    end.
  (** decode, 72-95.  Going through a sequence gives undefined keys, whose IsSequence throws; scalars have no entries. *)
  Definition decode_coeffs (v : yaml) (d : coeffs T) : run (option (coeffs T)) :=
    if negb (is_map v) then Done None
    else rdo (set_if "default_coeff" as_double v (cd_default d)) (fun c =>
         let d := coeff_step d (SetDefault c) in
         match get "pair_coeff_data" v with
         | None => Done (Some d)
         | Some (YMap m) => decode_pairs m d
         | Some (YSeq (_ :: _)) => Thrown
         | Some _ => Done (Some d)
         end).
  (** the default constructor, collision_types.h 112-119 *)
  Definition coeffs_default : coeffs T := coeff_new none_.
  (** Node::as: a new object; false becomes an exception *)
  Definition as_coeffs (v : yaml) : run (coeffs T) :=
    rdo (decode_coeffs v coeffs_default) (fun o => match o with Some d => Done d | None => Thrown end).

  (** almostEqualRelativeAndAbs(a, b, max_diff) with max_rel_diff = numeric_limits<double>::epsilon() *)
  Definition close (max_diff a b : T) : bool :=
    let diff := nabs (a - b) in
    if diff <=? max_diff then true else diff <=? nmax (nabs a) (nabs b) * (none_ / nofZ (2 ^ 52)).
  (** numeric_limits<float>::epsilon() *)
  Definition feps : T := none_ / nofZ (2 ^ 23).
  (** tesseract::common::isIdenticalMap: same size, and every key of the first has an equal value in the second *)
  Definition same_map (eq : T -> T -> bool) (m1 m2 : list ((nat * nat) * T)) : bool :=
    (length m1 =? length m2)%nat &&
    forallb (fun e => match pfind (fst e) m2 with Some c => eq c (snd e) | None => false end) m1.
  (** operator== of std::set, on lists without repetition *)
  Definition same_set (z1 z2 : list (nat * nat)) : bool :=
    (length z1 =? length z2)%nat && forallb (fun k => existsb (paireqb k) z2) z1.
  (** CollisionCoeffData::operator==, collision_types.cpp 76-93 *)
  Definition eq_coeffs (d1 d2 : coeffs T) : bool :=
    close feps (cd_default d1) (cd_default d2) && same_map (close feps) (cd_table d1) (cd_table d2) && same_set (cd_zero d1) (cd_zero d2).

  (** serialize, cereal_serialization.h 15-21: what the archive holds; the entries and pairs in the order they are gone through *)
  Record coeff_archive := { ar_default : T; ar_table : list ((nat * nat) * T); ar_zero : list (nat * nat) }.
  Definition save_coeffs (default : T) (entries : list ((nat * nat) * T)) (zero : list (nat * nat)) : coeff_archive :=
    {| ar_default := default; ar_table := entries; ar_zero := zero |}.
  (** loading replaces all three members *)
  Definition load_coeffs (a : coeff_archive) (d : coeffs T) : coeffs T :=
    {| cd_default := ar_default a; cd_table := ar_table a; cd_zero := ar_zero a |}.

  (** ** TrajOptCollisionConfig *)
  Variables CM CC : Type.
  Variable cm_encode : CM -> yaml.
  Variable cc_encode : CC -> yaml.
  Variable cm_decode : yaml -> run CM.
  Variable cc_decode : yaml -> run CC.
  Variable cm_scale : T -> CM -> CM.
  Variable cm_eq : CM -> CM -> bool.
  Variable cc_eq : CC -> CC -> bool.
  Record config := { cf_enabled : bool; cf_manager : CM; cf_check : CC; cf_coeffs : coeffs T; cf_buffer : T; cf_max : Z }.
  (** the default members, collision_types.h 141-163 *)
  Definition config_default (cm : CM) (cc : CC) : config :=
    {| cf_enabled := true; cf_manager := cm; cf_check := cc; cf_coeffs := coeffs_default; cf_buffer := ndec 1 (-2); cf_max := 3 |}.
  (** the constructor, collision_types.cpp 97-108; [cm], [cc] are the members made from margin, request, type, length and mode *)
  Definition config_new (cm : CM) (cc : CC) (coeff : T) : config :=
    {| cf_enabled := true; cf_manager := cm; cf_check := cc; cf_coeffs := coeff_new coeff; cf_buffer := ndec 1 (-2); cf_max := 3 |}.
  (** encode, yaml_extensions.h 102-112 *)
  Definition encode_config (c : config) (entries : list ((nat * nat) * T)) : yaml :=
    YMap [ (YKey "enabled", YBool (cf_enabled c)); (YKey "contact_manager_config", cm_encode (cf_manager c));
           (YKey "collision_check_config", cc_encode (cf_check c)); (YKey "collision_coeff_data", encode_coeffs (cd_default (cf_coeffs c)) entries);
           (YKey "collision_margin_buffer", YNum (cf_buffer c)); (YKey "max_num_cnt", YInt (cf_max c)) ].
  (** decode, 114-136 *)
  Definition decode_config (v : yaml) (c : config) : run (option config) :=
    if negb (is_map v) then Done None
    else rdo (set_if "enabled" as_bool v (cf_enabled c)) (fun en =>
         rdo (set_if "contact_manager_config" cm_decode v (cf_manager c)) (fun cm =>
         rdo (set_if "collision_check_config" cc_decode v (cf_check c)) (fun cc =>
         rdo (set_if "collision_coeff_data" as_coeffs v (cf_coeffs c)) (fun cd =>
         rdo (set_if "collision_margin_buffer" as_double v (cf_buffer c)) (fun b =>
         rdo (set_if "max_num_cnt" as_int v (cf_max c)) (fun n =>
         rdo (set_if "scale_margins" (fun w => rdo (as_double w) (fun s => Done (cm_scale s cm))) v cm) (fun cm =>
         Done (Some {| cf_enabled := en; cf_manager := cm; cf_check := cc; cf_coeffs := cd; cf_buffer := b; cf_max := n |})))))))).
  Definition as_config (cm : CM) (cc : CC) (v : yaml) : run config :=
    rdo (decode_config v (config_default cm cc)) (fun o => match o with Some c => Done c | None => Thrown end).
  (** operator==, collision_types.cpp 110-123 *)
  Definition eq_config (c1 c2 : config) : bool :=
    eqb (cf_enabled c1) (cf_enabled c2) && cm_eq (cf_manager c1) (cf_manager c2) && cc_eq (cf_check c1) (cf_check c2) &&
    eq_coeffs (cf_coeffs c1) (cf_coeffs c2) && close feps (cf_buffer c1) (cf_buffer c2) && (cf_max c1 =? cf_max c2)%Z.
  (** serialize, cereal_serialization.h 23-31 *)
  Record config_archive := { ar_enabled : bool; ar_manager : CM; ar_check : CC; ar_coeffs : coeff_archive; ar_buffer : T; ar_max : Z }.
  Definition save_config (c : config) (entries : list ((nat * nat) * T)) (zero : list (nat * nat)) : config_archive :=
    {| ar_enabled := cf_enabled c; ar_manager := cf_manager c; ar_check := cf_check c;
       ar_coeffs := save_coeffs (cd_default (cf_coeffs c)) entries zero; ar_buffer := cf_buffer c; ar_max := cf_max c |}.
  Definition load_config (a : config_archive) (c : config) : config :=
    {| cf_enabled := ar_enabled a; cf_manager := ar_manager a; cf_check := ar_check a;
       cf_coeffs := load_coeffs (ar_coeffs a) (cf_coeffs c); cf_buffer := ar_buffer a; cf_max := ar_max a |}.
End Serial.
Arguments yaml : clear implicits.
Arguments config : clear implicits.
