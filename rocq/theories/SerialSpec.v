(** * What documents and comparisons of the collision configuration mean *)
From Coq Require Import ZArith String List Bool Arith Reals Permutation.
From Verif Require Import Num CollisionModel SerialModel.
From Verif Require TrajoptModel.
Import ListNotations.
Import TrajoptModel (run, Done).

Section SerialSpec.
  Context {T : Type} {NT : Num T}.
  (** made by the constructor and the setters *)
  Definition made (d : coeffs T) : Prop := exists c os, d = coeff_run (coeff_new c) os.
  (** no getter tells them apart: getDefaultCollisionCoeff, getCollisionCoeff, getCollisionCoeffPairData (up to order) and
      getPairsWithZeroCoeff *)
  Definition alike (d1 d2 : coeffs T) : Prop :=
    cd_default d1 = cd_default d2 /\ (forall a b, getCollisionCoeff d1 a b = getCollisionCoeff d2 a b) /\
    Permutation (cd_table d1) (cd_table d2) /\ (forall a b, isZeroPair d1 a b = isZeroPair d2 a b) /\ Permutation (cd_zero d1) (cd_zero d2).

  Definition keys (m : list (yaml T * yaml T)) : list (yaml T) := map fst m.
  (** the member is there with that value, or it is not there and the value is the old one *)
  Definition says {A} (m : list (yaml T * yaml T)) (name : string) (P : yaml T -> A -> Prop) (old x : A) : Prop :=
    (~ In (YKey name) (keys m) /\ x = old) \/ (exists v, In (YKey name, v) m /\ P v x).
  Inductive num_of : yaml T -> T -> Prop := num_int z : num_of (YInt z) (nofZ z) | num_real x : num_of (YNum x) x.
  Inductive int_of : yaml T -> Z -> Prop := int_int z : (- 2 ^ 31 <= z < 2 ^ 31)%Z -> int_of (YInt z) z.
  Inductive flag_of : yaml T -> bool -> Prop := flag b : flag_of (YBool b) b.
  (** an entry [a, b]: c *)
  Inductive entry_of : yaml T * yaml T -> nat * nat * T -> Prop :=
    entry a b v c : num_of v c -> entry_of (YSeq [YName a; YName b], v) (a, b, c).
  Inductive table_of : yaml T -> list (nat * nat * T) -> Prop := table m es : Forall2 entry_of m es -> table_of (YMap m) es.
  (** the value of the last entry for the two links, in either order *)
  Fixpoint last_entry (a b : nat) (es : list (nat * nat * T)) : option T :=
    match es with
    | [] => None
    | (x, y, c) :: es =>
        match last_entry a b es with
        | Some c => Some c
        | None => if ((a =? x) && (b =? y) || (a =? y) && (b =? x))%nat then Some c else None
        end
    end.
End SerialSpec.

Local Open Scope R_scope.
(** the documented tolerance: absolute the epsilon of float, relative that of double *)
Definition tol (x y : R) : Prop := Rabs (x - y) <= / 2 ^ 23 \/ Rabs (x - y) <= Rmax (Rabs x) (Rabs y) * / 2 ^ 52.
(** a pair has a coefficient of its own *)
Definition has_own (d : coeffs R) (a b : nat) : Prop := exists c, In (ordered_pair a b, c) (cd_table d).
