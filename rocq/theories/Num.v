(** * Numbers

    C++ [double] is modelled by the operations of the class [Num], over an arbitrary carrier.
    No law is assumed: a theorem proved for every [Num] holds in particular for IEEE binary64
    including NaN and infinities.  Laws are added separately ([OrdLaws]) where a proof needs
    them.  Three instances are provided: the reals [R] (algebraic theorems), the rationals [Q]
    (executable examples) and IEEE binary64 as the axiom-free [spec_float] of the standard
    library (executable examples and witnesses with NaN). *)
From Coq Require Import List ZArith QArith Reals Lra Floats.SpecFloat.
Import ListNotations.

Class Num (T : Type) := {
  nzero : T;
  none_ : T;
  nadd : T -> T -> T;
  nsub : T -> T -> T;
  nmul : T -> T -> T;
  ndiv : T -> T -> T;
  nopp : T -> T;
  nabs : T -> T;
  nltb : T -> T -> bool;      (* C++ a < b *)
  nleb : T -> T -> bool;      (* C++ a <= b *)
  neqb : T -> T -> bool;      (* C++ a == b *)
  nofZ : Z -> T;              (* conversion int -> double *)
  ndec : Z -> Z -> T          (* [ndec m e] is the literal m * 10^e *)
}.

Declare Scope num_scope.
Delimit Scope num_scope with num.
Notation "x + y" := (nadd x y) : num_scope.
Notation "x - y" := (nsub x y) : num_scope.
Notation "x * y" := (nmul x y) : num_scope.
Notation "x / y" := (ndiv x y) : num_scope.
Notation "- x" := (nopp x) : num_scope.
Notation "x <? y" := (nltb x y) : num_scope.
Notation "x <=? y" := (nleb x y) : num_scope.
Notation "x =? y" := (neqb x y) : num_scope.
Notation "x >? y" := (nltb y x) (only parsing) : num_scope.
Notation "x >=? y" := (nleb y x) (only parsing) : num_scope.

Section Derived.
  Context {T : Type} `{Num T}.
  Local Open Scope num_scope.

  (** C++ [std::max(a,b)] = [(a < b) ? b : a]; [std::min(a,b)] = [(b < a) ? b : a]. *)
  Definition nmax (a b : T) : T := if a <? b then b else a.
  Definition nmin (a b : T) : T := if b <? a then b else a.

  (** [std::clamp(v,lo,hi)] = [v < lo ? lo : hi < v ? hi : v]. *)
  Definition nclamp (v lo hi : T) : T := if v <? lo then lo else if hi <? v then hi else v.

  (** C [fmax]/[fmin]: a NaN operand is ignored. *)
  Definition nisnan (a : T) : bool := negb (a =? a).
  Definition nfmax (a b : T) : T := if nisnan a then b else if nisnan b then a else nmax a b.
  Definition nfmin (a b : T) : T := if nisnan a then b else if nisnan b then a else nmin a b.

  (** Eigen reductions.  [sum] as a left fold from 0, [dot] over the common prefix (the real
      [dot] asserts equal sizes), [maxCoeff] as a left fold of [max] from the first entry
      (undefined for an empty vector, here [None]). *)
  Definition vsum (l : list T) : T := fold_left nadd l nzero.
  Definition vdot (a b : list T) : T := vsum (map (fun p => fst p * snd p) (combine a b)).
  Definition vmaxc (l : list T) : option T :=
    match l with [] => None | x :: r => Some (fold_left nmax r x) end.
  Definition vscale (k : T) (l : list T) : list T := map (fun x => k * x) l.
End Derived.

(** Order laws used by a few theorems.  They hold for the reals and for NaN-free doubles. *)
Class OrdLaws (T : Type) `{Num T} : Prop := {
  nltb_trans : forall a b c : T, nltb a b = true -> nltb b c = true -> nltb a c = true;
  nltb_neg_trans : forall a b c : T, nltb a b = false -> nltb a c = true -> nltb b c = true
}.

(** ** Reals *)
Definition Rltb (a b : R) : bool := if Rlt_dec a b then true else false.
Definition Rleb (a b : R) : bool := if Rle_dec a b then true else false.
Definition Reqb (a b : R) : bool := if Req_EM_T a b then true else false.
Definition Rdec (m e : Z) : R :=
  match e with
  | Z0 => IZR m
  | Zpos p => (IZR m * 10 ^ Pos.to_nat p)%R
  | Zneg p => (IZR m / 10 ^ Pos.to_nat p)%R
  end.

#[export] Instance R_Num : Num R := {|
  nzero := 0%R; none_ := 1%R; nadd := Rplus; nsub := Rminus; nmul := Rmult; ndiv := Rdiv;
  nopp := Ropp; nabs := Rabs; nltb := Rltb; nleb := Rleb; neqb := Reqb; nofZ := IZR; ndec := Rdec
|}.

(** ** Rationals *)
Definition Qdec (m e : Z) : Q :=
  match e with
  | Z0 => inject_Z m
  | Zpos p => inject_Z (m * 10 ^ Zpos p)
  | Zneg p => Qmake m (10 ^ p)
  end.

#[export] Instance Q_Num : Num Q := {|
  nzero := 0%Q; none_ := 1%Q;
  nadd := fun a b => Qred (Qplus a b); nsub := fun a b => Qred (Qminus a b);
  nmul := fun a b => Qred (Qmult a b); ndiv := fun a b => Qred (Qdiv a b);
  nopp := Qopp; nabs := fun a => Qmake (Z.abs (Qnum a)) (Qden a);
  nltb := fun a b => match Qcompare a b with Lt => true | _ => false end;
  nleb := Qle_bool; neqb := Qeq_bool; nofZ := inject_Z; ndec := Qdec
|}.

(** ** IEEE binary64 *)
Definition f64 := spec_float.
Definition f64_ofZ (z : Z) : f64 := binary_normalize 53 1024 z 0 false.
Definition f64_dec (m e : Z) : f64 :=
  match e with
  | Z0 => f64_ofZ m
  | Zpos p => f64_ofZ (m * 10 ^ Zpos p)
  | Zneg p => SFdiv 53 1024 (f64_ofZ m) (f64_ofZ (10 ^ Zpos p))
  end.

Definition f64_Num : Num f64 := {|
  nzero := S754_zero false; none_ := f64_ofZ 1;
  nadd := SFadd 53 1024; nsub := SFsub 53 1024; nmul := SFmul 53 1024; ndiv := SFdiv 53 1024;
  nopp := SFopp; nabs := SFabs; nltb := SFltb; nleb := SFleb; neqb := SFeqb;
  nofZ := f64_ofZ; ndec := f64_dec
|}.
