(** * Vocabulary for the collision properties, independent of how the code computes things *)
From Coq Require Import List ZArith Bool Arith Reals Permutation Sorted.
From Verif Require Import Num NumFacts RSums Common CollisionModel.
Import ListNotations.
Local Open Scope R_scope.

(** the greatest element of a list *)
Definition is_max (l : list R) (m : R) : Prop := In m l /\ forall x, In x l -> x <= m.

(** a getter must return the greatest of [l], and throw exactly when there is none *)
Definition reports_max (l : list R) (o : outcome (option R)) : Prop :=
  (l = [] /\ o = Ok None) \/ exists m, o = Ok (Some m) /\ is_max l m.

(** link [i] of result [r] moves, and the contact is not at the end of the motion other than [t] *)
Definition counts (i t : bool) (r : gres R) : bool :=
  has_gradient (side (gr_grads r) i) && negb (cceqb (gcc (side (gr_grads r) i)) (if t then CCTime0 else CCTime1)).
Definition counts_t (t : bool) (r : gres R) : bool := counts false t r || counts true t r.
Definition counts_any (r : gres R) : bool := counts_t false r || counts_t true r.

(** which contacts matter to a continuous constraint whose ends are fixed or not *)
Definition relevant (v0 v1 : bool) (r : gres R) : bool :=
  if negb v0 && negb v1 then counts_any r else counts_t v0 r.

(** a set filled by successive calls of add *)
Definition built (lowest : R) (k : nat * nat) (sh : Z * Z) (coeff : R) (cont : bool) (rs : list (gres R)) : gset R :=
  fold_left gs_add rs (gset_new lowest k sh coeff cont).

(** what std::sort may return for a comparator that is a strict weak order on the elements, when it
    is only called for more than [m] elements *)
Definition may_sort {A} (less : A -> A -> Prop) (m : nat) (l l' : list A) : Prop :=
  ((length l <= m)%nat /\ l' = l) \/
  ((m < length l)%nat /\ Permutation l l' /\ StronglySorted (fun a b => ~ less b a) l').

(** (scaled) gradients that enter the weighted average at end [t] *)
Definition wgrad (t : bool) (r : gres R) (i : bool) : lgrad R := side (if t then gr_cc r else gr_grads r) i.
Definition wentries (t : bool) (pos : bool -> bool) (rs : list (gres R)) : list (R * list R) :=
  flat_map (fun r => flat_map (fun i =>
    if has_gradient (wgrad t r i) && negb (cceqb (gcc (wgrad t r i)) (if t then CCTime0 else CCTime1)) && pos i
    then [(Rmax (gr_errb r) 0, map (fun x => gscale (wgrad t r i) * x) (gradient (wgrad t r i)))] else [])
    [false; true]) rs.

(** last coefficient set for an unordered pair *)
Fixpoint last_coeff (a b : nat) (os : list (coeff_op R)) : option R :=
  match os with
  | [] => None
  | SetDefault _ :: r => last_coeff a b r
  | SetCoeff a' b' c :: r =>
      match last_coeff a b r with
      | Some c' => Some c'
      | None => if ((a =? a') && (b =? b') || (a =? b') && (b =? a'))%nat then Some c else None
      end
  end.
Fixpoint last_default (d : R) (os : list (coeff_op R)) : R :=
  match os with [] => d | SetDefault c :: r => last_default c r | _ :: r => last_default d r end.

(** contacts of a contact map *)
Definition contact_in (m : list ((nat * nat) * list (contact R))) (k : nat * nat) (c : contact R) : Prop :=
  exists cs, In (k, cs) m /\ In c cs.

(** least integer not below [x] *)
Definition Rceil (x : R) : Z := (- Int_part (- x))%Z.
(** Euclidean distance of two states *)
Definition Rdist2 (a b : list R) : R := sqrt (Rsum (map (fun p => (snd p - fst p) * (snd p - fst p)) (combine a b))).
