(** * The exact numbers of the bundled convex hull

    Model of Int128, Rational64, Rational128 and DMul of /repo/trajopt_ext/vhacd/src/btConvexHullComputer.cpp lines 96-318, 466-503 and
    689-849, without USE_X86_64_ASM (which nothing in the build defines).  A word is an integer between 0 and 2^64; unsigned
    arithmetic is modulo 2^64, signed arithmetic that overflows is undefined, and conversions to signed types keep the bits. *)
From Coq Require Import ZArith Bool.
From Verif Require Import Common.
Local Open Scope Z_scope.

Definition w64 : Z := 2 ^ 64.
Definition wrap (z : Z) : Z := z mod w64.
(** (int64_t) of a word, and the sign of an int64_t changed *)
Definition s64 (w : Z) : Z := if w <? 2 ^ 63 then w else w - w64.
Definition sneg (z : Z) : outcome Z := if z =? - 2 ^ 63 then Undef else Ok (- z).

Record int128 := I128 { lo : Z; hi : Z }.
(** the constructors, lines 104-106 *)
Definition of_u64 (w : Z) : int128 := I128 w 0.
Definition of_s64 (v : Z) : int128 := I128 (wrap v) (if 0 <=? v then 0 else w64 - 1).
(** operator-(), line 111 *)
Definition neg (a : int128) : outcome int128 :=
  obind (sneg (s64 (lo a))) (fun m => Ok (I128 (wrap m) (wrap ((w64 - 1 - hi a) + (if lo a =? 0 then 1 else 0))))).
(** operator+, lines 123-124; operator-, 139; operator+=, 152-160; operator++, 163-170 *)
Definition add (a b : int128) : int128 :=
  let l := wrap (lo a + lo b) in I128 l (wrap (hi a + hi b + (if l <? lo a then 1 else 0))).
Definition sub (a b : int128) : outcome int128 := obind (neg b) (fun b => Ok (add a b)).
Definition add_to (a b : int128) : int128 :=
  let l := wrap (lo a + lo b) in
  let h := if l <? lo a then wrap (hi a + 1) else hi a in
  I128 l (wrap (h + hi b)).
Definition inc (a : int128) : int128 :=
  let l := wrap (lo a + 1) in I128 l (if l =? 0 then wrap (hi a + 1) else hi a).
(** getSign, operator<, ucmp, lines 181-202 *)
Definition get_sign (a : int128) : Z := if s64 (hi a) <? 0 then -1 else if (hi a =? 0) && (lo a =? 0) then 0 else 1.
Definition less (a b : int128) : bool := (hi a <? hi b) || ((hi a =? hi b) && (lo a <? lo b)).
Definition ucmp (a b : int128) : Z :=
  if hi a <? hi b then -1 else if hi b <? hi a then 1 else if lo a <? lo b then -1 else if lo b <? lo a then 1 else 0.

(** DMul::mul, lines 485-502, for words [W] with halves that are integers *)
Section DMul.
  Context {W : Type}.
  Variable low high : W -> Z.
  Variable mulh : Z -> Z -> W.
  Variable ofh : Z -> W.
  Variable plus plus_to : W -> W -> W.
  Variable shl incr : W -> W.
  Variable lt : W -> W -> bool.
  Definition dmul (a b : W) : W * W :=
    let p00 := mulh (low a) (low b) in
    let p01 := mulh (low a) (high b) in
    let p10 := mulh (high a) (low b) in
    let p11 := mulh (high a) (high b) in
    let p0110 := plus (ofh (low p01)) (ofh (low p10)) in
    let p11 := plus_to p11 (ofh (high p01)) in
    let p11 := plus_to p11 (ofh (high p10)) in
    let p11 := plus_to p11 (ofh (high p0110)) in
    let p0110 := shl p0110 in
    let p00 := plus_to p00 p0110 in
    (p00, if lt p00 p0110 then incr p11 else p11).
End DMul.

(** DMul<uint64_t, uint32_t>, lines 470-473 *)
Definition dmul64 : Z -> Z -> Z * Z :=
  dmul (fun v => v mod 2 ^ 32) (fun v => (v / 2 ^ 32) mod 2 ^ 32) (fun a b => wrap (a * b)) (fun h => h)
    (fun a b => wrap (a + b)) (fun a b => wrap (a + b)) (fun v => wrap (v * 2 ^ 32)) (fun v => wrap (v + 1)) Z.ltb.
(** Int128::mul(uint64_t, uint64_t), lines 727-739 *)
Definition umul (a b : Z) : int128 := let '(l, h) := dmul64 a b in I128 l h.
(** DMul<Int128, uint64_t>, lines 474-481 *)
Definition dmul128 : int128 -> int128 -> int128 * int128 :=
  dmul lo hi umul of_u64 add add_to (fun v => I128 0 (lo v)) inc less.

(** Int128::mul(int64_t, int64_t), lines 703-725 *)
Definition smul (a b : Z) : outcome int128 :=
  obind (if a <? 0 then sneg a else Ok a) (fun a' => obind (if b <? 0 then sneg b else Ok b) (fun b' =>
    let r := umul (wrap a') (wrap b') in
    if xorb (a <? 0) (b <? 0) then neg r else Ok r)).
(** operator*(int64_t), lines 689-701 *)
Definition mul_s (x : int128) (b : Z) : outcome int128 :=
  let negative := s64 (hi x) <? 0 in
  obind (if negative then neg x else Ok x) (fun a => obind (if b <? 0 then sneg b else Ok b) (fun b' =>
    let r := umul (lo a) (wrap b') in
    let r := I128 (lo r) (wrap (hi r + wrap (hi a * wrap b'))) in
    if xorb negative (b <? 0) then neg r else Ok r)).

(** Rational64, lines 205-247, and compare, 741-789 *)
Record rat64 := R64 { n64 : Z; d64 : Z; sg64 : Z }.
Definition rat64_new (n d : Z) : outcome rat64 :=
  obind (if 0 <? n then Ok (1, wrap n) else if n <? 0 then obind (sneg n) (fun m => Ok (-1, wrap m)) else Ok (0, 0)) (fun '(s, m) =>
    if 0 <? d then Ok (R64 m (wrap d) s) else if d <? 0 then obind (sneg d) (fun e => Ok (R64 m (wrap e) (- s))) else Ok (R64 m 0 s)).
Definition rat64_compare (a b : rat64) : Z :=
  if negb (sg64 a =? sg64 b) then sg64 a - sg64 b
  else if sg64 a =? 0 then 0
  else sg64 a * ucmp (umul (n64 a) (d64 b)) (umul (d64 a) (n64 b)).

(** Rational128, lines 258-310, and compare, 791-849 *)
Record rat128 := R128 { n128 : int128; d128 : int128; sg128 : Z; is_int : bool }.
Definition rat128_int (v : Z) : outcome rat128 :=
  if 0 <? v then Ok (R128 (of_s64 v) (of_u64 1) 1 true)
  else if v <? 0 then obind (sneg v) (fun m => Ok (R128 (of_s64 m) (of_u64 1) (-1) true))
  else Ok (R128 (of_u64 0) (of_u64 1) 0 true).
Definition rat128_new (n d : int128) : outcome rat128 :=
  let s := get_sign n in
  obind (if 0 <=? s then Ok n else neg n) (fun n' =>
    let ds := get_sign d in
    if 0 <=? ds then Ok (R128 n' d s false) else obind (neg d) (fun d' => Ok (R128 n' d' (- s) false))).
(** sign * (int64_t)numerator.low *)
Definition int_value (r : rat128) : outcome Z := if (sg128 r =? -1) then sneg (s64 (lo (n128 r))) else Ok (sg128 r * s64 (lo (n128 r))).
Definition rat128_compare_int (r : rat128) (b : Z) : outcome Z :=
  if is_int r then obind (int_value r) (fun a => Ok (if b <? a then 1 else if a <? b then -1 else 0))
  else if 0 <? b then if sg128 r <=? 0 then Ok (-1) else obind (mul_s (d128 r) b) (fun p => Ok (ucmp (n128 r) p * sg128 r))
  else if b <? 0 then if 0 <=? sg128 r then Ok 1 else obind (sneg b) (fun b => obind (mul_s (d128 r) b) (fun p => Ok (ucmp (n128 r) p * sg128 r)))
  else Ok (sg128 r).
Definition rat128_compare (a b : rat128) : outcome Z :=
  if negb (sg128 a =? sg128 b) then Ok (sg128 a - sg128 b)
  else if sg128 a =? 0 then Ok 0
  else if is_int a then obind (int_value a) (fun v => obind (rat128_compare_int b v) (fun c => Ok (- c)))
  else
    let '(nl, nh) := dmul128 (n128 a) (d128 b) in
    let '(dl, dh) := dmul128 (d128 a) (n128 b) in
    let c := ucmp nh dh in
    Ok (if negb (c =? 0) then c * sg128 a else ucmp nl dl * sg128 a).
