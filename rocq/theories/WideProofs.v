(** * Proofs about the exact numbers *)
From Coq Require Import ZArith QArith Bool Lia.
From Verif Require Import Common WideModel WideSpec.
Local Open Scope Z_scope.

Ltac nums := unfold w64 in *; change (2 ^ 128) with 340282366920938463463374607431768211456 in *; change (2 ^ 127) with 170141183460469231731687303715884105728 in *;
  change (2 ^ 64) with 18446744073709551616 in *; change (2 ^ 63) with 9223372036854775808 in *; change (2 ^ 32) with 4294967296 in *.

(** ** The product of two words in halves *)
Section DMul.
  Context {W : Type}.
  Variable low high : W -> Z.
  Variable mulh : Z -> Z -> W.
  Variable ofh : Z -> W.
  Variable plus plus_to : W -> W -> W.
  Variable shl incr : W -> W.
  Variable lt : W -> W -> bool.
  Variable B : Z.
  Variable rep : W -> Z -> Prop.
  Hypothesis HB : 2 <= B.
  Hypothesis Hrange : forall a z, rep a z -> 0 <= z < B * B.
  Hypothesis Hlow : forall a z, rep a z -> low a = z mod B.
  Hypothesis Hhigh : forall a z, rep a z -> high a = z / B.
  Hypothesis Hmul : forall x y, 0 <= x < B -> 0 <= y < B -> rep (mulh x y) (x * y).
  Hypothesis Hof : forall x, 0 <= x < B -> rep (ofh x) x.
  Hypothesis Hplus : forall a b x y, rep a x -> rep b y -> x + y < B * B -> rep (plus a b) (x + y).
  Hypothesis Hplus_to : forall a b x y, rep a x -> rep b y -> rep (plus_to a b) ((x + y) mod (B * B)).
  Hypothesis Hshl : forall a x, rep a x -> rep (shl a) (x mod B * B).
  Hypothesis Hinc : forall a x, rep a x -> x + 1 < B * B -> rep (incr a) (x + 1).
  Hypothesis Hlt : forall a b x y, rep a x -> rep b y -> lt a b = (x <? y).

  Lemma dmul_ok a b x y : rep a x -> rep b y ->
    exists l h, rep (fst (dmul low high mulh ofh plus plus_to shl incr lt a b)) l /\ rep (snd (dmul low high mulh ofh plus plus_to shl incr lt a b)) h /\
      h * (B * B) + l = x * y.
  Proof.
    intros Ra Rb. pose proof (Hrange _ _ Ra) as Bx. pose proof (Hrange _ _ Rb) as By. unfold dmul. cbn [fst snd].
    rewrite (Hlow _ _ Ra), (Hlow _ _ Rb), (Hhigh _ _ Ra), (Hhigh _ _ Rb).
    assert (D : forall z, 0 <= z < B * B -> 0 <= z mod B < B /\ 0 <= z / B < B /\ z = z / B * B + z mod B).
    { intros z Hz. split; [apply Z.mod_pos_bound; lia|]. split; [split; [apply Z.div_pos; lia|apply Z.div_lt_upper_bound; lia]|].
      rewrite Z.mul_comm. apply Z.div_mod. lia. }
    destruct (D x Bx) as (X0 & X1 & Ex). destruct (D y By) as (Y0 & Y1 & Ey).
    set (x0 := x mod B) in *. set (x1 := x / B) in *. set (y0 := y mod B) in *. set (y1 := y / B) in *.
    pose proof (Hmul x0 y0 X0 Y0) as R00. pose proof (Hmul x0 y1 X0 Y1) as R01. pose proof (Hmul x1 y0 X1 Y0) as R10. pose proof (Hmul x1 y1 X1 Y1) as R11.
    set (P00 := mulh x0 y0) in *. set (P01 := mulh x0 y1) in *. set (P10 := mulh x1 y0) in *. set (P11 := mulh x1 y1) in *.
    rewrite (Hlow _ _ R01), (Hlow _ _ R10), (Hhigh _ _ R01), (Hhigh _ _ R10).
    pose proof (Hrange _ _ R00) as B00. pose proof (Hrange _ _ R01) as B01. pose proof (Hrange _ _ R10) as B10. pose proof (Hrange _ _ R11) as B11.
    destruct (D _ B01) as (U0 & U1 & E01). destruct (D _ B10) as (V0 & V1 & E10).
    set (u0 := (x0 * y1) mod B) in *. set (u1 := (x0 * y1) / B) in *. set (v0 := (x1 * y0) mod B) in *. set (v1 := (x1 * y0) / B) in *.
    assert (Bs : u0 + v0 < B * B) by (assert (2 * B <= B * B) by (apply Z.mul_le_mono_nonneg_r; lia); lia).
    pose proof (Hplus _ _ _ _ (Hof u0 U0) (Hof v0 V0) Bs) as Rs. set (Ps := plus (ofh u0) (ofh v0)) in *.
    rewrite (Hhigh _ _ Rs). pose proof (Hrange _ _ Rs) as Bs'. destruct (D _ Bs') as (S0 & S1 & Es).
    set (s0 := (u0 + v0) mod B) in *. set (s1 := (u0 + v0) / B) in *.
    (* the whole product *)
    assert (E : x * y = (x1 * y1 + u1 + v1 + s1) * (B * B) + (x0 * y0 + s0 * B)).
    { rewrite Ex, Ey. transitivity (x1 * y1 * (B * B) + (x0 * y1 + x1 * y0) * B + x0 * y0); [ring|].
      rewrite E01, E10. transitivity ((x1 * y1 + u1 + v1) * (B * B) + (u0 + v0) * B + x0 * y0); [ring|]. rewrite Es. ring. }
    assert (T : x * y < B * B * (B * B)) by (apply Z.mul_lt_mono_nonneg; lia).
    assert (S0B : 0 <= s0 * B) by (apply Z.mul_nonneg_nonneg; lia). assert (S0B' : s0 * B < B * B) by (apply Z.mul_lt_mono_pos_r; lia).
    set (BB := B * B) in *. assert (HBB : 2 * 2 <= BB) by (apply Z.mul_le_mono_nonneg; lia).
    assert (Hh : x1 * y1 + u1 + v1 + s1 < BB) by (apply (Z.mul_lt_mono_pos_r BB); lia).
    pose proof (Hplus_to _ _ _ _ R11 (Hof u1 U1)) as Q1. rewrite Z.mod_small in Q1 by lia.
    pose proof (Hplus_to _ _ _ _ Q1 (Hof v1 V1)) as Q2. rewrite Z.mod_small in Q2 by lia.
    pose proof (Hplus_to _ _ _ _ Q2 (Hof s1 S1)) as Q3. rewrite Z.mod_small in Q3 by lia.
    pose proof (Hshl _ _ Rs) as Rsh. fold s0 in Rsh. pose proof (Hplus_to _ _ _ _ R00 Rsh) as Q4.
    rewrite (Hlt _ _ _ _ Q4 Rsh).
    destruct (Z_lt_dec (x0 * y0 + s0 * B) BB) as [K|K].
    - rewrite Z.mod_small in Q4 |- * by lia. destruct (Z.ltb_spec (x0 * y0 + s0 * B) (s0 * B)); [lia|].
      exists (x0 * y0 + s0 * B), (x1 * y1 + u1 + v1 + s1). split; [exact Q4|]. split; [exact Q3|]. lia.
    - assert (M : (x0 * y0 + s0 * B) mod BB = x0 * y0 + s0 * B - BB) by (symmetry; apply (Z.mod_unique _ _ 1); lia).
      rewrite M in Q4 |- *. destruct (Z.ltb_spec (x0 * y0 + s0 * B - BB) (s0 * B)); [|lia].
      assert (Hh' : x1 * y1 + u1 + v1 + s1 + 1 < BB) by (apply (Z.mul_lt_mono_pos_r BB); lia).
      exists (x0 * y0 + s0 * B - BB), (x1 * y1 + u1 + v1 + s1 + 1). split; [exact Q4|]. split; [now apply Hinc|]. lia.
  Qed.
End DMul.

Lemma dmul64_ok x y : 0 <= x < 2 ^ 64 -> 0 <= y < 2 ^ 64 ->
  let '(l, h) := dmul64 x y in 0 <= l < 2 ^ 64 /\ 0 <= h < 2 ^ 64 /\ h * 2 ^ 64 + l = x * y.
Proof.
  intros Hx Hy. destruct (dmul64 x y) as [l h] eqn:E.
  destruct (dmul_ok (fun v => v mod 2 ^ 32) (fun v => (v / 2 ^ 32) mod 2 ^ 32) (fun a b => wrap (a * b)) (fun h => h)
    (fun a b => wrap (a + b)) (fun a b => wrap (a + b)) (fun v => wrap (v * 2 ^ 32)) (fun v => wrap (v + 1)) Z.ltb (2 ^ 32) (fun a z => a = z /\ 0 <= z < 2 ^ 64)) with (a := x) (b := y) (x := x) (y := y)
    as (l' & h' & (El & Rl) & (Eh & Rh) & P).
  - nums. lia.
  - intros a z [_ H]. nums. lia.
  - intros a z [-> _]. reflexivity.
  - intros a z [-> H]. apply Z.mod_small. split; [apply Z.div_pos; nums; lia|]. apply Z.div_lt_upper_bound; nums; lia.
  - intros a b Ha Hb. assert (0 <= a * b < 2 ^ 64) by (nums; nia). split; [|assumption]. unfold wrap. now apply Z.mod_small.
  - intros a Ha. split; [reflexivity|]. nums. lia.
  - intros a b u v [-> Hu] [-> Hv] H. assert (0 <= u + v < 2 ^ 64) by (nums; lia). split; [|assumption]. unfold wrap. now apply Z.mod_small.
  - intros a b u v [-> Hu] [-> Hv]. split; [reflexivity|]. apply Z.mod_pos_bound. nums; lia.
  - intros a u [-> Hu]. unfold wrap. change w64 with (2 ^ 32 * 2 ^ 32). rewrite Z.mul_mod_distr_r by (nums; lia). split; [reflexivity|].
    pose proof (Z.mod_pos_bound u (2 ^ 32)). nums. nia.
  - intros a u [-> Hu] H. assert (0 <= u + 1 < 2 ^ 64) by (nums; lia). split; [|assumption]. unfold wrap. now apply Z.mod_small.
  - intros a b u v [-> _] [-> _]. reflexivity.
  - split; [reflexivity|exact Hx].
  - split; [reflexivity|exact Hy].
  - unfold dmul64 in E. rewrite E in El, Eh. cbn [fst snd] in El, Eh. subst l' h'. split; [exact Rl|]. split; [exact Rh|]. rewrite <- P. nums. lia.
Qed.

Lemma umul_ok x y : 0 <= x < 2 ^ 64 -> 0 <= y < 2 ^ 64 -> wf (umul x y) /\ uval (umul x y) = x * y.
Proof.
  intros Hx Hy. pose proof (dmul64_ok x y Hx Hy) as H. unfold umul. destruct (dmul64 x y) as [l h]. destruct H as (H1 & H2 & H3).
  split; [split; assumption|exact H3].
Qed.

(** ** Sums *)
Lemma wrap_small z : 0 <= z < 2 ^ 64 -> wrap z = z.
Proof. apply Z.mod_small. Qed.
Lemma wrap2 z : 0 <= z < 2 * 2 ^ 64 -> wrap z = if z <? 2 ^ 64 then z else z - 2 ^ 64.
Proof.
  intros H. unfold wrap. destruct (Z.ltb_spec z (2 ^ 64)).
  - apply Z.mod_small. nums. lia.
  - symmetry. apply (Z.mod_unique _ _ 1); nums; lia.
Qed.
Lemma mod2 z : 0 <= z < 2 * 2 ^ 128 -> z mod 2 ^ 128 = if z <? 2 ^ 128 then z else z - 2 ^ 128.
Proof.
  intros H. destruct (Z.ltb_spec z (2 ^ 128)).
  - apply Z.mod_small. lia.
  - symmetry. apply (Z.mod_unique _ _ 1); nums; lia.
Qed.
Lemma uval_range a : wf a -> 0 <= uval a < 2 ^ 128.
Proof. intros [H1 H2]. unfold uval. nums. lia. Qed.

Lemma add_ok a b : wf a -> wf b -> wf (add a b) /\ uval (add a b) = (uval a + uval b) mod 2 ^ 128.
Proof.
  intros Ha Hb. pose proof (uval_range a Ha). pose proof (uval_range b Hb). destruct Ha as [A1 A2], Hb as [B1 B2].
  rewrite mod2 by (nums; lia). unfold wf, uval in *. unfold add. cbn [lo hi].
  rewrite (wrap2 (lo a + lo b)) by (nums; lia).
  destruct (Z.ltb_spec (lo a + lo b) (2 ^ 64)) as [K|K].
  - destruct (Z.ltb_spec (lo a + lo b) (lo a)); [lia|]. rewrite (wrap2 (hi a + hi b + 0)) by (nums; lia).
    destruct (Z.ltb_spec (hi a + hi b + 0) (2 ^ 64)); destruct (Z.ltb_spec (hi a * 2 ^ 64 + lo a + (hi b * 2 ^ 64 + lo b)) (2 ^ 128)); nums; lia.
  - destruct (Z.ltb_spec (lo a + lo b - 2 ^ 64) (lo a)); [|nums; lia]. rewrite (wrap2 (hi a + hi b + 1)) by (nums; lia).
    destruct (Z.ltb_spec (hi a + hi b + 1) (2 ^ 64)); destruct (Z.ltb_spec (hi a * 2 ^ 64 + lo a + (hi b * 2 ^ 64 + lo b)) (2 ^ 128)); nums; lia.
Qed.
Lemma add_to_add a b : wf a -> wf b -> add_to a b = add a b.
Proof.
  intros [A1 A2] [B1 B2]. unfold add_to, add. f_equal. destruct (wrap (lo a + lo b) <? lo a); [|f_equal; lia].
  unfold wrap. rewrite Zplus_mod_idemp_l. f_equal. lia.
Qed.
Lemma inc_add a : wf a -> inc a = add a (of_u64 1).
Proof.
  intros [A1 A2]. unfold inc, add, of_u64. cbn [lo hi]. f_equal. rewrite wrap2 by (nums; lia).
  destruct (Z.ltb_spec (lo a + 1) (2 ^ 64)) as [K|K].
  - destruct (Z.eqb_spec (lo a + 1) 0); [lia|]. destruct (Z.ltb_spec (lo a + 1) (lo a)); [lia|]. rewrite wrap_small by lia. lia.
  - destruct (Z.eqb_spec (lo a + 1 - 2 ^ 64) 0); [|lia]. destruct (Z.ltb_spec (lo a + 1 - 2 ^ 64) (lo a)); [|nums; lia]. f_equal. lia.
Qed.
Lemma of_u64_ok x : 0 <= x < 2 ^ 64 -> wf (of_u64 x) /\ uval (of_u64 x) = x.
Proof. intros H. unfold wf, uval, of_u64. cbn [lo hi]. nums. lia. Qed.
Lemma less_ok a b : wf a -> wf b -> less a b = (uval a <? uval b).
Proof.
  intros [A1 A2] [B1 B2]. unfold less, uval.
  destruct (Z.ltb_spec (hi a) (hi b)), (Z.eqb_spec (hi a) (hi b)), (Z.ltb_spec (lo a) (lo b)); destruct (Z.ltb_spec (hi a * 2 ^ 64 + lo a) (hi b * 2 ^ 64 + lo b)); cbn; try reflexivity; nums; lia.
Qed.
Lemma ucmp_ok a b : wf a -> wf b -> ucmp a b = Z.sgn (uval a - uval b).
Proof.
  intros [A1 A2] [B1 B2]. unfold ucmp, uval.
  destruct (Z.ltb_spec (hi a) (hi b)); [nums; lia|]. destruct (Z.ltb_spec (hi b) (hi a)); [nums; lia|].
  destruct (Z.ltb_spec (lo a) (lo b)); [nums; lia|]. destruct (Z.ltb_spec (lo b) (lo a)); nums; lia.
Qed.

(** ** The product of two pairs of words *)
Lemma dmul128_ok a b : wf a -> wf b ->
  let '(l, h) := dmul128 a b in wf l /\ wf h /\ uval h * 2 ^ 128 + uval l = uval a * uval b.
Proof.
  intros Ha Hb. destruct (dmul128 a b) as [l h] eqn:E.
  destruct (dmul_ok lo hi umul of_u64 add add_to (fun v => I128 0 (lo v)) inc less (2 ^ 64) (fun a z => wf a /\ uval a = z))
    with (a := a) (b := b) (x := uval a) (y := uval b) as (l' & h' & (Wl & El) & (Wh & Eh) & P).
  - nums. lia.
  - intros c z [H <-]. pose proof (uval_range c H). nums. lia.
  - intros c z [[H1 H2] <-]. unfold uval. rewrite Z.add_comm, Z.mod_add by (nums; lia). symmetry. now apply Z.mod_small.
  - intros c z [[H1 H2] <-]. unfold uval. rewrite Z.div_add_l by (nums; lia). rewrite (Z.div_small (lo c)) by lia. lia.
  - exact umul_ok.
  - exact of_u64_ok.
  - intros c e u v [Hc <-] [He <-] H. destruct (add_ok c e Hc He) as [W ->]. split; [exact W|]. apply Z.mod_small.
    pose proof (uval_range c Hc). pose proof (uval_range e He). nums. lia.
  - intros c e u v [Hc <-] [He <-]. rewrite add_to_add by assumption. destruct (add_ok c e Hc He) as [W ->]. split; [exact W|]. reflexivity.
  - intros c u [[H1 H2] <-]. split; [split; cbn [lo hi]; [nums; lia|exact H1]|]. unfold uval. cbn [lo hi].
    rewrite (Z.add_comm (hi c * 2 ^ 64) (lo c)), Z.mod_add by (nums; lia). rewrite (Z.mod_small (lo c)) by exact H1. lia.
  - intros c u [Hc <-] H. rewrite inc_add by exact Hc. destruct (of_u64_ok 1 ltac:(nums; lia)) as [W1 E1].
    destruct (add_ok c (of_u64 1) Hc W1) as [W ->]. split; [exact W|]. rewrite E1. apply Z.mod_small. pose proof (uval_range c Hc). nums. lia.
  - intros c e u v [Hc <-] [He <-]. now apply less_ok.
  - split; [exact Ha|reflexivity].
  - split; [exact Hb|reflexivity].
  - unfold dmul128 in E. rewrite E in El, Eh, Wl, Wh. cbn [fst snd] in El, Eh, Wl, Wh. subst l' h'. split; [exact Wl|]. split; [exact Wh|].
    rewrite <- P. nums. lia.
Qed.

(** ** Signs *)
Lemma s64_range w : 0 <= w < 2 ^ 64 -> s64 w = - 2 ^ 63 <-> w = 2 ^ 63.
Proof. intros H. unfold s64. destruct (Z.ltb_spec w (2 ^ 63)); nums; lia. Qed.
Lemma sval_range a : wf a -> - 2 ^ 127 <= sval a < 2 ^ 127.
Proof. intros [H1 H2]. unfold sval, uval. destruct (Z.ltb_spec (hi a) (2 ^ 63)); nums; lia. Qed.
Lemma sval_uval a : wf a -> sval a = uval a \/ sval a = uval a - 2 ^ 128.
Proof. intros _. unfold sval. destruct (hi a <? 2 ^ 63); [left|right]; reflexivity. Qed.
Lemma sval_iff a z : wf a -> - 2 ^ 127 <= z < 2 ^ 127 -> uval a = z mod 2 ^ 128 -> sval a = z.
Proof.
  intros Ha Hz E. pose proof (sval_range a Ha) as Hs.
  assert (E' : sval a mod 2 ^ 128 = z mod 2 ^ 128).
  { rewrite <- E. destruct (sval_uval a Ha) as [-> | ->]; [apply Z.mod_small; now apply uval_range|].
    symmetry. apply (Z.mod_unique _ _ (-1)); pose proof (uval_range a Ha); nums; lia. }
  pose proof (Z.div_mod (sval a) (2 ^ 128)) as D1. pose proof (Z.div_mod z (2 ^ 128)) as D2. rewrite E' in D1. nums. lia.
Qed.
Lemma sval_mod a : wf a -> sval a mod 2 ^ 128 = uval a.
Proof.
  intros Ha. destruct (sval_uval a Ha) as [-> | ->]; [apply Z.mod_small; now apply uval_range|].
  symmetry. apply (Z.mod_unique _ _ (-1)); pose proof (uval_range a Ha); nums; lia.
Qed.
Lemma sval_neg a : wf a -> s64 (hi a) <? 0 = (sval a <? 0).
Proof. intros [H1 H2]. unfold s64, sval, uval. destruct (Z.ltb_spec (hi a) (2 ^ 63)); [destruct (Z.ltb_spec (hi a) 0)|destruct (Z.ltb_spec (hi a - w64) 0)]; symmetry; first [apply Z.ltb_lt|apply Z.ltb_ge]; nums; lia. Qed.

Lemma neg_undef a : wf a -> (neg a = Undef <-> lo a = 2 ^ 63).
Proof.
  intros [H1 H2]. rewrite <- (s64_range (lo a) H1). unfold neg, sneg. destruct (Z.eqb_spec (s64 (lo a)) (- 2 ^ 63)); cbn [obind].
  - split; intros _; [assumption|reflexivity].
  - split; [discriminate|contradiction].
Qed.
Lemma neg_ok a : wf a -> lo a <> 2 ^ 63 -> exists r, neg a = Ok r /\ wf r /\ uval r = (- uval a) mod 2 ^ 128.
Proof.
  intros [H1 H2] N. unfold neg, sneg. destruct (Z.eqb_spec (s64 (lo a)) (- 2 ^ 63)) as [K|K]; [apply (proj1 (s64_range _ H1)) in K; contradiction|].
  cbn [obind]. eexists. split; [reflexivity|].
  assert (E : wrap (- s64 (lo a)) = if lo a =? 0 then 0 else 2 ^ 64 - lo a).
  { unfold wrap, s64. destruct (Z.eqb_spec (lo a) 0) as [Z0|Z0]; [rewrite Z0; reflexivity|].
    destruct (Z.ltb_spec (lo a) (2 ^ 63)); [symmetry; apply (Z.mod_unique _ _ (-1)); nums; lia|symmetry; apply (Z.mod_unique _ _ 0); nums; lia]. }
  unfold wf, uval. cbn [lo hi]. rewrite E. destruct (Z.eqb_spec (lo a) 0) as [Z0|Z0].
  - rewrite wrap2 by (nums; lia). rewrite Z0. destruct (Z.eq_dec (hi a) 0) as [Z1|Z1].
    + rewrite Z1. vm_compute. intuition congruence.
    + destruct (Z.ltb_spec (w64 - 1 - hi a + 1) (2 ^ 64)); [|nums; lia]. split; [nums; lia|]. apply (Z.mod_unique _ _ (-1)); nums; lia.
  - rewrite wrap_small by (nums; lia). split; [nums; lia|]. apply (Z.mod_unique _ _ (-1)); nums; lia.
Qed.
Lemma lo_mod a : wf a -> lo a = uval a mod 2 ^ 64.
Proof. intros [H1 H2]. unfold uval. rewrite Z.add_comm, Z.mod_add by (nums; lia). symmetry. now apply Z.mod_small. Qed.
Lemma lo_smod a : wf a -> lo a = sval a mod 2 ^ 64.
Proof.
  intros Ha. rewrite (lo_mod a Ha). destruct (sval_uval a Ha) as [-> | ->]; [reflexivity|].
  change (2 ^ 128) with (2 ^ 64 * 2 ^ 64). rewrite <- (Z.mod_add (uval a - 2 ^ 64 * 2 ^ 64) (2 ^ 64) (2 ^ 64)) by (nums; lia). f_equal. lia.
Qed.
Lemma bad_opp z : bad_low (- z) <-> bad_low z.
Proof.
  assert (H : forall z, bad_low z -> bad_low (- z)).
  { unfold bad_low. intros y Hy. rewrite Z.mod_opp_l_nz; [rewrite Hy; reflexivity|nums; lia|rewrite Hy; nums; lia]. }
  split; [|apply H]. intros K. apply H in K. now rewrite Z.opp_involutive in K.
Qed.

(** the absolute value, as an unsigned number *)
Lemma abs_ok a : wf a -> ~ (sval a < 0 /\ bad_low (sval a)) -> exists r, (if sval a <? 0 then neg a else Ok a) = Ok r /\ wf r /\ uval r = Z.abs (sval a).
Proof.
  intros Ha N. pose proof (sval_range a Ha). pose proof (uval_range a Ha). destruct (Z.ltb_spec (sval a) 0) as [K|K].
  - destruct (neg_ok a Ha) as (r & E & W & V).
    + intros E. apply N. split; [exact K|]. unfold bad_low. now rewrite <- lo_smod.
    + exists r. split; [exact E|]. split; [exact W|]. rewrite V. destruct (sval_uval a Ha) as [S1|S1]; [lia|].
      symmetry. apply (Z.mod_unique _ _ (-1)); nums; lia.
  - exists a. split; [reflexivity|]. split; [exact Ha|]. destruct (sval_uval a Ha) as [S1|S1]; nums; lia.
Qed.
Lemma neg_sval r z : wf r -> uval r = z -> 0 <= z < 2 ^ 127 -> ~ bad_low z -> exists r', neg r = Ok r' /\ wf r' /\ sval r' = - z.
Proof.
  intros W V Hz N. destruct (neg_ok r W) as (r' & E & W' & V').
  - intros E. apply N. unfold bad_low. rewrite <- V, <- lo_mod by exact W. exact E.
  - exists r'. split; [exact E|]. split; [exact W'|]. apply (sval_iff r' (- z) W'); [nums; lia|]. now rewrite V', V.
Qed.

Lemma sneg_abs a : is_s64 a -> a <> - 2 ^ 63 -> (if a <? 0 then sneg a else Ok a) = Ok (Z.abs a).
Proof. intros H N. unfold sneg. destruct (Z.ltb_spec a 0); [destruct (Z.eqb_spec a (- 2 ^ 63)); [contradiction|]|]; f_equal; lia. Qed.

Lemma mul_s_pos x b : wf x -> 0 <= sval x -> is_s64 b -> 0 < b -> uval x * b < 2 ^ 128 -> exists r, mul_s x b = Ok r /\ wf r /\ uval r = uval x * b.
Proof.
  intros Hx Hp Hb Hb0 Hr. unfold is_s64 in Hb. unfold mul_s. rewrite sval_neg by exact Hx. destruct (Z.ltb_spec (sval x) 0); [lia|]. destruct (Z.ltb_spec b 0); [lia|].
  cbn [obind xorb]. eexists. split; [reflexivity|]. rewrite (wrap_small b) by (nums; lia). pose proof Hx as [X1 X2].
  destruct (umul_ok (lo x) b X1 ltac:(nums; lia)) as [[W1 W2] V]. unfold uval in *.
  assert (Q : 0 <= hi x * b < 2 ^ 64) by (nums; nia). rewrite (wrap_small (hi x * b) Q).
  assert (Q' : hi (umul (lo x) b) + hi x * b < 2 ^ 64) by (nums; nia). unfold wf. cbn [lo hi]. rewrite wrap_small by (nums; lia).
  split; [nums; lia|]. nums. lia.
Qed.

(** ** Orders *)
Lemma quot_norm n d : d <> 0 -> (quotient n d == (n * Z.sgn d) # Z.to_pos (Z.abs d))%Q.
Proof.
  intros H. unfold quotient. destruct d as [|p|p]; [contradiction| |].
  - cbn [Z.sgn Z.abs Z.to_pos]. rewrite Z.mul_1_r. symmetry. apply Qmake_Qdiv.
  - unfold Qeq. cbn. lia.
Qed.
Lemma orders_of c n1 d1 n2 d2 s1 s2 : d1 <> 0 -> d2 <> 0 -> s1 = Z.sgn n1 * Z.sgn d1 -> s2 = Z.sgn n2 * Z.sgn d2 ->
  Z.sgn c = (if negb (s1 =? s2) then Z.sgn (s1 - s2) else if s1 =? 0 then 0 else s1 * Z.sgn (Z.abs n1 * Z.abs d2 - Z.abs d1 * Z.abs n2)) ->
  orders c (quotient n1 d1) (quotient n2 d2).
Proof.
  intros D1 D2 E1 E2 Ec. unfold orders. rewrite !(quot_norm n1 d1 D1), !(quot_norm n2 d2 D2). unfold Qlt, Qeq. cbn [Qnum Qden].
  rewrite !Z2Pos.id by lia.
  assert (N1 : n1 * Z.sgn d1 = s1 * Z.abs n1) by (subst s1; rewrite <- (Z.sgn_abs n1) at 1; lia).
  assert (N2 : n2 * Z.sgn d2 = s2 * Z.abs n2) by (subst s2; rewrite <- (Z.sgn_abs n2) at 1; lia).
  rewrite N1, N2.
  assert (S1 : (s1 = 0 <-> n1 = 0) /\ -1 <= s1 <= 1) by (subst s1; destruct n1, d1; cbn; split; try lia; split; intros; congruence).
  assert (S2 : (s2 = 0 <-> n2 = 0) /\ -1 <= s2 <= 1) by (subst s2; destruct n2, d2; cbn; split; try lia; split; intros; congruence).
  assert (X : s1 * Z.abs n1 * Z.abs d2 = s1 * (Z.abs n1 * Z.abs d2)) by ring. rewrite X.
  assert (Y : s2 * Z.abs n2 * Z.abs d1 = s2 * (Z.abs d1 * Z.abs n2)) by ring. rewrite Y.
  assert (PX : 0 <= Z.abs n1 * Z.abs d2 /\ (n1 <> 0 -> 0 < Z.abs n1 * Z.abs d2)) by (split; [nia|intros; nia]).
  assert (PY : 0 <= Z.abs d1 * Z.abs n2 /\ (n2 <> 0 -> 0 < Z.abs d1 * Z.abs n2)) by (split; [nia|intros; nia]).
  set (U := Z.abs n1 * Z.abs d2) in *. set (V := Z.abs d1 * Z.abs n2) in *. clearbody U V.
  assert (C1 : s1 = -1 \/ s1 = 0 \/ s1 = 1) by lia. assert (C2 : s2 = -1 \/ s2 = 0 \/ s2 = 1) by lia.
  clear X Y N1 N2 E1 E2 D1 D2. destruct (Z.eqb_spec s1 s2), (Z.eqb_spec s1 0); cbn [negb] in Ec; destruct C1 as [-> | [-> | ->]], C2 as [-> | [-> | ->]]; lia.
Qed.
