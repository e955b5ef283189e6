(** * What the exact numbers stand for *)
From Coq Require Import ZArith QArith Bool.
From Verif Require Import WideModel.
Local Open Scope Z_scope.

(** two words, and the integer they are without and with sign *)
Definition wf (a : int128) : Prop := 0 <= lo a < 2 ^ 64 /\ 0 <= hi a < 2 ^ 64.
Definition uval (a : int128) : Z := hi a * 2 ^ 64 + lo a.
Definition sval (a : int128) : Z := if hi a <? 2 ^ 63 then uval a else uval a - 2 ^ 128.
(** an int64_t *)
Definition is_s64 (v : Z) : Prop := - 2 ^ 63 <= v < 2 ^ 63.
(** the integer of a low word that cannot be negated: (int64_t)low is the least int64_t *)
Definition bad_low (z : Z) : Prop := z mod 2 ^ 64 = 2 ^ 63.

(** c orders x and y *)
Definition orders (c : Z) (x y : Q) : Prop := (c < 0 <-> (x < y)%Q) /\ (c = 0 <-> (x == y)%Q) /\ (0 < c <-> (y < x)%Q).
Definition quotient (n d : Z) : Q := (inject_Z n / inject_Z d)%Q.

(** what a Rational128 stands for *)
Definition stands (r : rat128) (n d : Z) : Prop :=
  wf (n128 r) /\ wf (d128 r) /\ uval (n128 r) = Z.abs n /\ uval (d128 r) = Z.abs d /\ sg128 r = Z.sgn n * (if d <? 0 then -1 else 1) /\
  (is_int r = true -> d = 1 /\ Z.abs n < 2 ^ 63 /\ lo (n128 r) = Z.abs n).
