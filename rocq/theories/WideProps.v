(** * C146: the 128-bit integers of the convex hull; C147: its rationals *)
From Coq Require Import ZArith QArith Bool Lia.
From Verif Require Import Common WideModel WideSpec WideProofs.
Local Open Scope Z_scope.

(** The product of two words in two words, and that of two pairs of words in two pairs, are exact. *)
Theorem C146_product :
  (forall x y, 0 <= x < 2 ^ 64 -> 0 <= y < 2 ^ 64 -> wf (umul x y) /\ uval (umul x y) = x * y) /\
  (forall a b, wf a -> wf b -> let '(l, h) := dmul128 a b in wf l /\ wf h /\ uval h * 2 ^ 128 + uval l = uval a * uval b).
Proof. split; [exact umul_ok|exact dmul128_ok]. Qed.
Print Assumptions C146_product.

(** Sums are sums modulo 2^128, and the exact ones of signed numbers if these have room. *)
Theorem C146_sum : forall a b, wf a -> wf b ->
  wf (add a b) /\ uval (add a b) = (uval a + uval b) mod 2 ^ 128 /\ add_to a b = add a b /\
  uval (inc a) = (uval a + 1) mod 2 ^ 128 /\
  (- 2 ^ 127 <= sval a + sval b < 2 ^ 127 -> sval (add a b) = sval a + sval b).
Proof.
  intros a b Ha Hb. destruct (add_ok a b Ha Hb) as [W V]. split; [exact W|]. split; [exact V|]. split; [now apply add_to_add|]. split.
  - rewrite inc_add by exact Ha. destruct (of_u64_ok 1 ltac:(nums; lia)) as [W1 V1]. destruct (add_ok a _ Ha W1) as [_ ->]. now rewrite V1.
  - intros H. apply (sval_iff _ _ W H). rewrite V, <- (sval_mod a Ha), <- (sval_mod b Hb). symmetry. apply Zplus_mod.
Qed.
Print Assumptions C146_sum.

(** The sign is changed for every number but those with the low word 2^63, for which it is undefined. *)
Theorem C146_neg : forall a, wf a ->
  (lo a = 2 ^ 63 <-> neg a = Undef) /\
  (lo a <> 2 ^ 63 -> exists r, neg a = Ok r /\ wf r /\ uval r = (- uval a) mod 2 ^ 128 /\ (sval a <> - 2 ^ 127 -> sval r = - sval a)).
Proof.
  intros a Ha. split; [symmetry; now apply neg_undef|]. intros H. destruct (neg_ok a Ha H) as (r & E & W & V). exists r.
  split; [exact E|]. split; [exact W|]. split; [exact V|]. intros N. pose proof (sval_range a Ha). apply (sval_iff r _ W); [nums; lia|].
  rewrite V, <- (sval_mod a Ha). rewrite <- (Z.sub_0_l (sval a mod _)), <- (Z.sub_0_l (sval a)). apply Zminus_mod_idemp_r.
Qed.
Print Assumptions C146_neg.

Theorem C146_difference : forall a b, wf a -> wf b -> lo b <> 2 ^ 63 ->
  exists r, sub a b = Ok r /\ wf r /\ uval r = (uval a - uval b) mod 2 ^ 128 /\
    (- 2 ^ 127 <= sval a - sval b < 2 ^ 127 -> sval r = sval a - sval b).
Proof.
  intros a b Ha Hb H. destruct (neg_ok b Hb H) as (m & E & W & V). unfold sub. rewrite E. cbn [obind]. eexists. split; [reflexivity|].
  destruct (add_ok a m Ha W) as [W' V']. split; [exact W'|].
  assert (U : uval (add a m) = (uval a - uval b) mod 2 ^ 128) by (rewrite V', V, Zplus_mod_idemp_r; f_equal; lia).
  split; [exact U|]. intros R. apply (sval_iff _ _ W' R). rewrite U, <- (sval_mod a Ha), <- (sval_mod b Hb). symmetry. apply Zminus_mod.
Qed.
Print Assumptions C146_difference.

(** The product of two signed words is exact, unless one is the least, or the product is negative with the low word 2^63: then it is
    undefined. *)
Theorem C146_signed_product : forall a b, is_s64 a -> is_s64 b ->
  (a = - 2 ^ 63 \/ b = - 2 ^ 63 \/ (a * b < 0 /\ bad_low (a * b)) -> smul a b = Undef) /\
  (a <> - 2 ^ 63 -> b <> - 2 ^ 63 -> ~ (a * b < 0 /\ bad_low (a * b)) -> exists r, smul a b = Ok r /\ wf r /\ sval r = a * b).
Proof.
  intros a b Ha Hb. unfold is_s64 in *.
  assert (main : a <> - 2 ^ 63 -> b <> - 2 ^ 63 -> exists r, wf r /\ uval r = Z.abs (a * b) /\ uval r < 2 ^ 127 /\ smul a b = if xorb (a <? 0) (b <? 0) then neg r else Ok r).
  { intros Na Nb. unfold smul. rewrite (sneg_abs a Ha Na), (sneg_abs b Hb Nb). cbn [obind]. rewrite (wrap_small (Z.abs a)), (wrap_small (Z.abs b)) by (nums; lia).
    destruct (umul_ok (Z.abs a) (Z.abs b)) as [W V]; [nums; lia|nums; lia|]. exists (umul (Z.abs a) (Z.abs b)). split; [exact W|]. rewrite V. split; [symmetry; apply Z.abs_mul|]. split; [|reflexivity].
    assert (Z.abs a * Z.abs b <= (2 ^ 63 - 1) * (2 ^ 63 - 1)) by (apply Z.mul_le_mono_nonneg; nums; lia). nums. lia. }
  split.
  - intros [-> | [-> | [H1 H2]]].
    + reflexivity.
    + unfold smul. destruct (Z.ltb_spec a 0); cbn [obind]; [|reflexivity]. unfold sneg at 1. destruct (a =? - 2 ^ 63); reflexivity.
    + destruct (Z.eq_dec a (- 2 ^ 63)) as [->|Na]; [reflexivity|].
      destruct (Z.eq_dec b (- 2 ^ 63)) as [->|Nb]; [unfold smul; rewrite (sneg_abs a Ha Na); reflexivity|].
      destruct (main Na Nb) as (r & W & V & _ & ->).
      assert (xorb (a <? 0) (b <? 0) = true) as -> by (destruct (Z.ltb_spec a 0), (Z.ltb_spec b 0); try reflexivity; nia).
      apply neg_undef; [exact W|]. rewrite lo_mod, V, Z.abs_neq by (try exact W; lia). now apply bad_opp.
  - intros Na Nb N. destruct (main Na Nb) as (r & W & V & L & ->). destruct (xorb (a <? 0) (b <? 0)) eqn:E.
    + assert (P : a * b <= 0) by (destruct (Z.ltb_spec a 0), (Z.ltb_spec b 0); try discriminate; nia).
      destruct (neg_sval r (Z.abs (a * b)) W V ltac:(lia)) as (r' & E' & W' & V').
      * intros K. rewrite Z.abs_neq in K by exact P. apply (proj1 (bad_opp _)) in K. apply N. split; [|exact K]. destruct (Z.eq_dec (a * b) 0) as [Z0|]; [|lia].
        rewrite Z0 in K. vm_compute in K. discriminate.
      * exists r'. split; [exact E'|]. split; [exact W'|]. lia.
    + assert (P : 0 <= a * b) by (destruct (Z.ltb_spec a 0), (Z.ltb_spec b 0); try discriminate; nia).
      exists r. split; [reflexivity|]. split; [exact W|]. apply (sval_iff r _ W); [nums; lia|]. rewrite V, Z.abs_eq by exact P. symmetry. apply Z.mod_small. nums. lia.
Qed.
Print Assumptions C146_signed_product.

(** So is the product of a pair of words and a word that has room. *)
Theorem C146_scaled : forall x b, wf x -> is_s64 b -> b <> - 2 ^ 63 -> Z.abs (sval x * b) < 2 ^ 127 ->
  ~ (sval x < 0 /\ bad_low (sval x)) -> ~ (sval x * b < 0 /\ bad_low (sval x * b)) ->
  exists r, mul_s x b = Ok r /\ wf r /\ sval r = sval x * b.
Proof.
  intros x b Hx Hb Nb R N1 N2. unfold is_s64 in Hb. unfold mul_s. rewrite sval_neg by exact Hx. destruct (abs_ok x Hx N1) as (a & -> & Wa & Va). cbn [obind].
  rewrite (sneg_abs b Hb Nb). cbn [obind]. rewrite (wrap_small (Z.abs b)) by (nums; lia).
  rewrite Z.abs_mul in R. pose proof Wa as [A1 A2].
  destruct (umul_ok (lo a) (Z.abs b) A1 ltac:(nums; lia)) as [[W1 W2] V].
  set (r := I128 _ _).
  assert (Q : wf r /\ uval r = Z.abs (sval x) * Z.abs b).
  { assert (E : Z.abs (sval x) * Z.abs b = hi a * Z.abs b * 2 ^ 64 + lo a * Z.abs b) by (rewrite <- Va; unfold uval; ring).
    assert (P0 : 0 <= hi a * Z.abs b) by (apply Z.mul_nonneg_nonneg; lia). assert (P1 : 0 <= lo a * Z.abs b) by (apply Z.mul_nonneg_nonneg; lia).
    unfold uval in V. assert (Q0 : hi a * Z.abs b < 2 ^ 64) by (nums; lia). unfold r. rewrite (wrap_small (hi a * Z.abs b)) by lia.
    rewrite wrap_small by (nums; lia). unfold wf, uval. cbn [lo hi]. split; [nums; lia|]. rewrite E. nums. lia. }
  destruct Q as [W U]. rewrite <- Z.abs_mul in U, R. destruct (xorb (sval x <? 0) (b <? 0)) eqn:E.
  - assert (P : sval x * b <= 0) by (destruct (Z.ltb_spec (sval x) 0), (Z.ltb_spec b 0); try discriminate; nia).
    destruct (neg_sval r (Z.abs (sval x * b)) W U ltac:(lia)) as (r' & E' & W' & V').
    + intros K. rewrite Z.abs_neq in K by exact P. apply (proj1 (bad_opp _)) in K. apply N2. split; [|exact K]. destruct (Z.eq_dec (sval x * b) 0) as [Z0|]; [|lia].
      rewrite Z0 in K. vm_compute in K. discriminate.
    + exists r'. split; [exact E'|]. split; [exact W'|]. lia.
  - assert (P : 0 <= sval x * b) by (destruct (Z.ltb_spec (sval x) 0), (Z.ltb_spec b 0); try discriminate; nia).
    exists r. split; [reflexivity|]. split; [exact W|]. apply (sval_iff r _ W); [nums; lia|]. rewrite U, Z.abs_eq by exact P. symmetry. apply Z.mod_small. nums. lia.
Qed.
Print Assumptions C146_scaled.

(** Conversion, sign and the comparison without sign. *)
Theorem C146_order :
  (forall v, is_s64 v -> wf (of_s64 v) /\ sval (of_s64 v) = v) /\
  (forall a, wf a -> get_sign a = Z.sgn (sval a)) /\
  (forall a b, wf a -> wf b -> ucmp a b = Z.sgn (uval a - uval b) /\ less a b = (uval a <? uval b)).
Proof.
  split; [|split].
  - intros v Hv. unfold is_s64 in Hv. unfold wf, sval, uval, of_s64. cbn [lo hi]. unfold wrap. destruct (Z.leb_spec 0 v).
    + rewrite Z.mod_small by (nums; lia). split; [nums; lia|]. change (0 <? 2 ^ 63) with true. cbv iota. lia.
    + assert (E : v mod w64 = v + 2 ^ 64) by (symmetry; apply (Z.mod_unique _ _ (-1)); nums; lia). rewrite E. split; [nums; lia|].
      change (w64 - 1 <? 2 ^ 63) with false. cbv iota. nums. lia.
  - intros a Ha. unfold get_sign. rewrite sval_neg by exact Ha. destruct (Z.ltb_spec (sval a) 0); [lia|].
    assert (sval a = uval a) as -> by (destruct (sval_uval a Ha); [assumption|]; pose proof (uval_range a Ha); nums; lia).
    destruct Ha as [H1 H2]. unfold uval. destruct (Z.eqb_spec (hi a) 0), (Z.eqb_spec (lo a) 0); cbn [andb]; nums; lia.
  - intros a b Ha Hb. split; [now apply ucmp_ok|now apply less_ok].
Qed.
Print Assumptions C146_order.

Example C146_ex : wf (I128 (2 ^ 64 - 1) 5) /\ is_s64 (- 3 * 2 ^ 61) /\
  smul (- 3 * 2 ^ 61) (2 ^ 62 + 1) = Ok (I128 (2 ^ 64 - 3 * 2 ^ 61) (2 ^ 64 - 3 * 2 ^ 59 - 1)) /\ sval (I128 (2 ^ 64 - 3 * 2 ^ 61) (2 ^ 64 - 3 * 2 ^ 59 - 1)) = - 3 * 2 ^ 61 * (2 ^ 62 + 1) /\
  mul_s (I128 7 3) (-2) = Ok (I128 (2 ^ 64 - 14) (2 ^ 64 - 7)) /\ sval (I128 (2 ^ 64 - 14) (2 ^ 64 - 7)) = (3 * 2 ^ 64 + 7) * -2.
Proof. vm_compute. intuition congruence. Qed.

(** The sign of 2^63 cannot be changed, though it fits, nor can -2 and 2^62 be multiplied. *)
Theorem C146_neg_refuted : exists a, wf a /\ - 2 ^ 127 < sval a /\ neg a = Undef /\ exists x y, is_s64 x /\ is_s64 y /\ x <> - 2 ^ 63 /\ y <> - 2 ^ 63 /\ x * y = - sval a /\ smul x y = Undef.
Proof.
  exists (I128 (2 ^ 63) 0). split; [unfold wf; cbn [lo hi]; nums; lia|]. split; [reflexivity|]. split; [reflexivity|].
  exists (-2), (2 ^ 62). split; [unfold is_s64; nums; lia|]. split; [unfold is_s64; change (2 ^ 62) with 4611686018427387904; nums; lia|].
  split; [intros H; vm_compute in H; discriminate|]. split; [intros H; vm_compute in H; discriminate|]. split; reflexivity.
Qed.
Print Assumptions C146_neg_refuted.

(** operator< is the order of numbers without sign: -1 is not less than 0. *)
Theorem C146_less_refuted : exists a b, wf a /\ wf b /\ sval a < sval b /\ less a b = false.
Proof.
  exists (of_s64 (-1)), (of_s64 0). destruct C146_order as [H _]. split; [apply H; unfold is_s64; nums; lia|]. split; [apply H; unfold is_s64; nums; lia|].
  split; reflexivity.
Qed.
Print Assumptions C146_less_refuted.

(** ** C147 *)
(** Comparing two Rational64 orders the rationals, for all numerators and denominators but the least int64_t. *)
Theorem C147_rational64 : forall n1 d1 n2 d2, is_s64 n1 -> is_s64 d1 -> is_s64 n2 -> is_s64 d2 ->
  n1 <> - 2 ^ 63 -> d1 <> - 2 ^ 63 -> n2 <> - 2 ^ 63 -> d2 <> - 2 ^ 63 ->
  exists a b, rat64_new n1 d1 = Ok a /\ rat64_new n2 d2 = Ok b /\
    (d1 <> 0 -> d2 <> 0 -> orders (rat64_compare a b) (quotient n1 d1) (quotient n2 d2)) /\
    (d1 = 0 -> n1 <> 0 -> d2 <> 0 -> Z.sgn (rat64_compare a b) = Z.sgn n1) /\
    (d1 <> 0 -> d2 = 0 -> n2 <> 0 -> Z.sgn (rat64_compare a b) = - Z.sgn n2).
Proof.
  intros n1 d1 n2 d2 H1 H2 H3 H4 N1 N2 N3 N4.
  assert (new : forall n d, is_s64 n -> is_s64 d -> n <> - 2 ^ 63 -> d <> - 2 ^ 63 ->
    rat64_new n d = Ok (R64 (Z.abs n) (Z.abs d) (Z.sgn n * (if d <? 0 then -1 else 1)))).
  { intros n d Hn Hd Nn Nd. unfold is_s64 in *. unfold rat64_new, sneg.
    destruct (Z.eqb_spec n (- 2 ^ 63)); [contradiction|]. destruct (Z.eqb_spec d (- 2 ^ 63)); [contradiction|].
    destruct (Z.ltb_spec 0 n); [|destruct (Z.ltb_spec n 0)]; cbn [obind]; (destruct (Z.ltb_spec 0 d); [|destruct (Z.ltb_spec d 0)]; cbn [obind]);
      rewrite ?wrap_small by (nums; lia); destruct (Z.ltb_spec d 0); try lia; f_equal; f_equal; lia. }
  exists (R64 (Z.abs n1) (Z.abs d1) (Z.sgn n1 * (if d1 <? 0 then -1 else 1))), (R64 (Z.abs n2) (Z.abs d2) (Z.sgn n2 * (if d2 <? 0 then -1 else 1))).
  split; [now apply new|]. split; [now apply new|]. clear new. unfold is_s64 in *. unfold rat64_compare. cbn [n64 d64 sg64].
  destruct (umul_ok (Z.abs n1) (Z.abs d2)) as [W1 V1]; [nums; lia|nums; lia|]. destruct (umul_ok (Z.abs d1) (Z.abs n2)) as [W2 V2]; [nums; lia|nums; lia|].
  rewrite (ucmp_ok _ _ W1 W2), V1, V2.
  assert (Sd : forall d, d <> 0 -> (if d <? 0 then -1 else 1) = Z.sgn d) by (clear; intros d Hd; destruct (Z.ltb_spec d 0); [now rewrite Z.sgn_neg|rewrite Z.sgn_pos; [reflexivity|lia]]).
  assert (Sx : forall x, Z.sgn (Z.sgn x) = Z.sgn x) by (intros [|p|p]; reflexivity).
  split; [|split].
  - intros D1 D2. rewrite (Sd d1 D1), (Sd d2 D2). apply (orders_of _ n1 d1 n2 d2 (Z.sgn n1 * Z.sgn d1) (Z.sgn n2 * Z.sgn d2) D1 D2 eq_refl eq_refl).
    destruct (negb _); [reflexivity|]. destruct (_ =? 0); [reflexivity|]. rewrite !Z.sgn_mul, !Sx. reflexivity.
  - intros -> Hn D2. change (if 0 <? 0 then -1 else 1) with 1. rewrite (Sd d2 D2), Z.mul_1_r. change (Z.abs 0) with 0. rewrite Z.mul_0_l, Z.sub_0_r.
    assert (P : Z.sgn (Z.abs n1 * Z.abs d2) = 1) by (apply Z.sgn_pos; apply Z.mul_pos_pos; lia). rewrite P.
    assert (C : Z.sgn n2 * Z.sgn d2 = -1 \/ Z.sgn n2 * Z.sgn d2 = 0 \/ Z.sgn n2 * Z.sgn d2 = 1) by (destruct n2, d2; cbn; lia).
    destruct (Z.eqb_spec (Z.sgn n1) (Z.sgn n2 * Z.sgn d2)) as [E|E]; cbn [negb].
    + destruct (Z.eqb_spec (Z.sgn n1) 0); [lia|]. rewrite Z.mul_1_r. apply Sx.
    + lia.
  - intros D1 -> Hn. change (if 0 <? 0 then -1 else 1) with 1. rewrite (Sd d1 D1), Z.mul_1_r. change (Z.abs 0) with 0. rewrite Z.mul_0_r, Z.sub_0_l.
    assert (P : Z.sgn (- (Z.abs d1 * Z.abs n2)) = -1) by (apply Z.sgn_neg; assert (0 < Z.abs d1 * Z.abs n2) by (apply Z.mul_pos_pos; lia); lia). rewrite P.
    assert (C : Z.sgn n1 * Z.sgn d1 = -1 \/ Z.sgn n1 * Z.sgn d1 = 0 \/ Z.sgn n1 * Z.sgn d1 = 1) by (destruct n1, d1; cbn; lia).
    destruct (Z.eqb_spec (Z.sgn n1 * Z.sgn d1) (Z.sgn n2)) as [E|E]; cbn [negb]; [|lia].
    rewrite E. destruct (Z.eqb_spec (Z.sgn n2) 0); lia.
Qed.
Print Assumptions C147_rational64.

(** Every int64_t but the least gives its Rational128, and so does every pair of Int128 whose signs can be changed. *)
Theorem C147_new :
  (forall v, is_s64 v -> v <> - 2 ^ 63 -> exists r, rat128_int v = Ok r /\ stands r v 1 /\ is_int r = true) /\
  (forall n d, wf n -> wf d -> ~ (sval n < 0 /\ bad_low (sval n)) -> ~ (sval d < 0 /\ bad_low (sval d)) ->
     exists r, rat128_new n d = Ok r /\ stands r (sval n) (sval d) /\ is_int r = false).
Proof.
  split.
  - intros v Hv N. unfold is_s64 in Hv. unfold rat128_int, sneg. destruct (of_u64_ok 1 ltac:(nums; lia)) as [W1 V1]. destruct (of_u64_ok 0 ltac:(nums; lia)) as [W0 V0].
    assert (P : forall m, 0 <= m < 2 ^ 63 -> of_s64 m = of_u64 m) by (intros m Hm; unfold of_s64, of_u64; destruct (Z.leb_spec 0 m); [|lia]; rewrite wrap_small by (nums; lia); reflexivity).
    destruct (Z.ltb_spec 0 v); [|destruct (Z.ltb_spec v 0)].
    + rewrite P by lia. destruct (of_u64_ok v ltac:(nums; lia)) as [Wv Vv]. eexists. split; [reflexivity|]. split; [|reflexivity]. unfold stands. cbn [n128 d128 sg128 is_int].
      split; [exact Wv|]. split; [exact W1|]. split; [lia|]. split; [lia|]. split; [cbn; lia|]. intros _. cbn [lo of_u64]. lia.
    + destruct (Z.eqb_spec v (- 2 ^ 63)); [contradiction|]. cbn [obind]. rewrite P by (nums; lia). destruct (of_u64_ok (- v) ltac:(nums; lia)) as [Wv Vv].
      eexists. split; [reflexivity|]. split; [|reflexivity]. unfold stands. cbn [n128 d128 sg128 is_int].
      split; [exact Wv|]. split; [exact W1|]. split; [lia|]. split; [lia|]. split; [cbn; lia|]. intros _. cbn [lo of_u64]. lia.
    + assert (v = 0) as -> by lia. eexists. split; [reflexivity|]. split; [|reflexivity]. unfold stands. cbn [n128 d128 sg128 is_int].
      split; [exact W0|]. split; [exact W1|]. split; [exact V0|]. split; [exact V1|]. split; [reflexivity|]. intros _. cbn. lia.
  - intros n d Hn Hd Nn Nd. unfold rat128_new. destruct C146_order as (_ & G & _). rewrite (G n Hn), (G d Hd).
    destruct (abs_ok n Hn Nn) as (n' & En & Wn & Vn). destruct (abs_ok d Hd Nd) as (d' & Ed & Wd & Vd).
    assert (B : forall z, (0 <=? Z.sgn z) = negb (z <? 0)) by (intros z; destruct (Z.leb_spec 0 (Z.sgn z)), (Z.ltb_spec z 0); try reflexivity; lia).
    rewrite !B. destruct (sval n <? 0); cbn [negb]; rewrite En; cbn [obind]; (destruct (sval d <? 0) eqn:Sd; cbn [negb]; [rewrite Ed|injection Ed as <-]; cbn [obind]);
      (eexists; split; [reflexivity|]); (split; [|reflexivity]); unfold stands; cbn [n128 d128 sg128 is_int]; rewrite Sd;
      (split; [exact Wn|]); (split; [exact Wd|]); (split; [exact Vn|]); (split; [exact Vd|]); (split; [lia|]); discriminate.
Qed.
Print Assumptions C147_new.

Lemma int_value_ok r n d : stands r n d -> is_int r = true -> d = 1 /\ Z.abs n < 2 ^ 63 /\ int_value r = Ok n.
Proof.
  intros (_ & _ & _ & _ & S1 & H) E. destruct (H E) as (-> & Hn & L). split; [reflexivity|]. split; [exact Hn|]. unfold int_value. rewrite S1, L. unfold s64.
  destruct (Z.ltb_spec (Z.abs n) (2 ^ 63)); [|lia]. change (if 1 <? 0 then -1 else 1) with 1. rewrite Z.mul_1_r.
  destruct (Z.eqb_spec (Z.sgn n) (-1)) as [K|K].
  - unfold sneg. destruct (Z.eqb_spec (Z.abs n) (- 2 ^ 63)); [lia|]. f_equal. lia.
  - f_equal. destruct n; cbn in *; lia.
Qed.

Lemma compare_int_ok r n d b : stands r n d -> d <> 0 -> is_s64 b -> b <> - 2 ^ 63 -> (is_int r = false -> Z.abs d < 2 ^ 127 /\ Z.abs d * Z.abs b < 2 ^ 128) ->
  exists c, rat128_compare_int r b = Ok c /\ orders c (quotient n d) (quotient b 1).
Proof.
  intros St D Hb Nb Hr. pose proof St as (Wn & Wd & Vn & Vd & S1 & _). unfold is_s64 in Hb. unfold rat128_compare_int.
  assert (Sd : (if d <? 0 then -1 else 1) = Z.sgn d) by (destruct (Z.ltb_spec d 0); lia). rewrite Sd in S1.
  assert (C : sg128 r = -1 \/ sg128 r = 0 \/ sg128 r = 1) by (rewrite S1; destruct n, d; cbn; lia).
  assert (O : forall c, Z.sgn c = (if negb (sg128 r =? Z.sgn b) then Z.sgn (sg128 r - Z.sgn b) else if sg128 r =? 0 then 0 else sg128 r * Z.sgn (Z.abs n - Z.abs d * Z.abs b)) ->
    orders c (quotient n d) (quotient b 1)).
  { intros c Hc. apply (orders_of c n d b 1 (sg128 r) (Z.sgn b) D ltac:(lia) S1); [change (Z.sgn 1) with 1; lia|]. change (Z.abs 1) with 1. rewrite Z.mul_1_r. exact Hc. }
  destruct (is_int r) eqn:I.
  - destruct (int_value_ok r n d St I) as (-> & Hn & ->). cbn [obind]. eexists. split; [reflexivity|]. apply O. change (Z.sgn 1) with 1 in S1. rewrite Z.mul_1_r in S1. rewrite S1.
    change (Z.abs 1) with 1. rewrite Z.mul_1_l.
    destruct (Z.ltb_spec b n); [|destruct (Z.ltb_spec n b)]; (destruct (Z.eqb_spec (Z.sgn n) (Z.sgn b)); cbn [negb]; [destruct (Z.eqb_spec (Z.sgn n) 0)|]); try lia;
      assert (K : Z.sgn n = 1 \/ Z.sgn n = -1) by lia; destruct K as [K|K]; rewrite K; lia.
  - destruct (Hr eq_refl) as [R1 R2].
    assert (M : forall b', 0 < b' -> b' = Z.abs b -> exists p, mul_s (d128 r) b' = Ok p /\ ucmp (n128 r) p = Z.sgn (Z.abs n - Z.abs d * Z.abs b)).
    { intros b' H0' ->. destruct (mul_s_pos (d128 r) (Z.abs b) Wd) as (p & E & Wp & Vp); try assumption.
      - destruct (sval_uval _ Wd) as [-> | Q]; [lia|]. pose proof (sval_range _ Wd). rewrite Q in *. nums. lia.
      - unfold is_s64. nums. lia.
      - rewrite Vd. exact R2.
      - exists p. split; [exact E|]. rewrite (ucmp_ok _ _ Wn Wp), Vn, Vp, Vd. reflexivity. }
    destruct (Z.ltb_spec 0 b) as [P|P]; [|destruct (Z.ltb_spec b 0) as [Q|Q]].
    + destruct (Z.leb_spec (sg128 r) 0) as [K|K].
      * exists (-1). split; [reflexivity|]. apply O. destruct (Z.eqb_spec (sg128 r) (Z.sgn b)); cbn [negb]; lia.
      * destruct (M b P ltac:(lia)) as (p & -> & U). cbn [obind]. rewrite U. eexists. split; [reflexivity|]. apply O.
        destruct (Z.eqb_spec (sg128 r) (Z.sgn b)); cbn [negb]; [|lia]. assert (sg128 r = 1) as -> by lia. cbn [Z.eqb]. destruct (Z.eqb_spec 1 0); lia.
    + destruct (Z.leb_spec 0 (sg128 r)) as [K|K].
      * exists 1. split; [reflexivity|]. apply O. destruct (Z.eqb_spec (sg128 r) (Z.sgn b)); cbn [negb]; lia.
      * unfold sneg. destruct (Z.eqb_spec b (- 2 ^ 63)); [contradiction|]. cbn [obind]. destruct (M (- b) ltac:(lia) ltac:(lia)) as (p & -> & U). cbn [obind]. rewrite U. eexists. split; [reflexivity|]. apply O.
        destruct (Z.eqb_spec (sg128 r) (Z.sgn b)); cbn [negb]; [|lia]. assert (sg128 r = -1) as -> by lia. destruct (Z.eqb_spec (-1) 0); lia.
    + exists (sg128 r). split; [reflexivity|]. apply O. assert (b = 0) as -> by lia. change (Z.sgn 0) with 0. destruct (Z.eqb_spec (sg128 r) 0) as [K|K]; cbn [negb]; [rewrite K; reflexivity|]. now rewrite Z.sub_0_r.
Qed.
Lemma sgn_pm n d s : s = Z.sgn n * Z.sgn d -> s <> 0 -> s = -1 \/ s = 1.
Proof. intros ->. destruct n, d; cbn; auto; intros h; now destruct h. Qed.
Lemma lex_sgn B N1 N2 L1 L2 s : 0 <= L1 < B -> 0 <= L2 < B ->
  (if negb (Z.sgn (N1 - N2) =? 0) then Z.sgn (N1 - N2) * s else Z.sgn (L1 - L2) * s) = Z.sgn (N1 * B + L1 - (N2 * B + L2)) * s.
Proof.
  intros h1 h2. destruct (Z.lt_trichotomy N1 N2) as [h|[->|h]].
  - rewrite (Z.sgn_neg (N1 - N2)) by lia. cbn [Z.eqb negb]. now rewrite (Z.sgn_neg (N1 * B + L1 - (N2 * B + L2))) by nia.
  - rewrite Z.sub_diag. cbn [Z.sgn Z.eqb negb]. do 2 f_equal. lia.
  - rewrite (Z.sgn_pos (N1 - N2)) by lia. cbn [Z.eqb negb]. now rewrite (Z.sgn_pos (N1 * B + L1 - (N2 * B + L2))) by nia.
Qed.


(** Comparing two Rational128, or one with an integer, orders the rationals, as long as the product of an integer and a denominator has room. *)
Theorem C147_rational128 :
  (forall r n d b, stands r n d -> d <> 0 -> is_s64 b -> b <> - 2 ^ 63 -> (is_int r = false -> Z.abs d < 2 ^ 127 /\ Z.abs d * Z.abs b < 2 ^ 128) ->
     exists c, rat128_compare_int r b = Ok c /\ orders c (quotient n d) (quotient b 1)) /\
  (forall r1 n1 d1 r2 n2 d2, stands r1 n1 d1 -> stands r2 n2 d2 -> d1 <> 0 -> d2 <> 0 ->
     (is_int r1 = true -> is_int r2 = false -> Z.abs d2 < 2 ^ 127 /\ Z.abs d2 * Z.abs n1 < 2 ^ 128) ->
     exists c, rat128_compare r1 r2 = Ok c /\ orders c (quotient n1 d1) (quotient n2 d2)).
Proof.
  split; [exact compare_int_ok|]. intros r1 n1 d1 r2 n2 d2 St1 St2 D1 D2 Hr.
  pose proof St1 as (Wn1 & Wd1 & Vn1 & Vd1 & S1 & _). pose proof St2 as (Wn2 & Wd2 & Vn2 & Vd2 & S2 & _).
  assert (Sd : forall d, d <> 0 -> (if d <? 0 then -1 else 1) = Z.sgn d) by (clear; intros d Hd; destruct (Z.ltb_spec d 0); [now rewrite Z.sgn_neg|rewrite Z.sgn_pos; [reflexivity|lia]]).
  rewrite (Sd d1 D1) in S1. rewrite (Sd d2 D2) in S2.
  assert (Sx : forall x, Z.sgn (Z.sgn x) = Z.sgn x) by (intros [|p|p]; reflexivity).
  assert (O := fun c => orders_of c n1 d1 n2 d2 (sg128 r1) (sg128 r2) D1 D2 S1 S2). unfold rat128_compare.
  destruct (Z.eqb_spec (sg128 r1) (sg128 r2)) as [E|E]; cbn [negb] in *; [|eexists; split; [reflexivity|]; now apply O].
  destruct (Z.eqb_spec (sg128 r1) 0) as [E0|E0]; [eexists; split; [reflexivity|]; now apply O|].
  destruct (is_int r1) eqn:I.
  - destruct (int_value_ok r1 n1 d1 St1 I) as (-> & Hn & ->). cbn [obind].
    destruct (compare_int_ok r2 n2 d2 n1 St2 D2) as (c & -> & Hc).
    + unfold is_s64. clear - Hn. lia.
    + clear - Hn. lia.
    + exact (Hr eq_refl).
    + cbn [obind]. exists (- c). split; [reflexivity|]. destruct Hc as (C1 & C2 & C3). split; [|split].
      * rewrite <- C3. clear. lia.
      * assert (Q : (quotient n1 1 == quotient n2 d2 <-> quotient n2 d2 == quotient n1 1)%Q) by (split; intros; now symmetry). rewrite Q, <- C2. clear. lia.
      * rewrite <- C1. clear. lia.
  - pose proof (dmul128_ok _ _ Wn1 Wd2) as P1. pose proof (dmul128_ok _ _ Wd1 Wn2) as P2.
    destruct (dmul128 (n128 r1) (d128 r2)) as [nl nh]. destruct (dmul128 (d128 r1) (n128 r2)) as [dl dh].
    destruct P1 as (A1 & A2 & A3). destruct P2 as (B1 & B2 & B3). rewrite Vn1, Vd2 in A3. rewrite Vd1, Vn2 in B3.
    eexists. split; [reflexivity|]. apply O. rewrite (ucmp_ok _ _ A2 B2), (ucmp_ok _ _ A1 B1), <- A3, <- B3.
    pose proof (uval_range _ A1). pose proof (uval_range _ B1). set (N1 := uval nh) in *. set (N2 := uval dh) in *. set (L1 := uval nl) in *. set (L2 := uval dl) in *.
    assert (C : sg128 r1 = -1 \/ sg128 r1 = 1) by (exact (sgn_pm n1 d1 _ S1 E0)).
    assert (F : (if negb (Z.sgn (N1 - N2) =? 0) then Z.sgn (N1 - N2) * sg128 r1 else Z.sgn (L1 - L2) * sg128 r1) = Z.sgn (N1 * 2 ^ 128 + L1 - (N2 * 2 ^ 128 + L2)) * sg128 r1).
    { apply lex_sgn; assumption. }
    rewrite F. set (X := N1 * 2 ^ 128 + L1 - (N2 * 2 ^ 128 + L2)). rewrite Z.sgn_mul, Sx, Z.mul_comm. destruct C as [-> | ->]; reflexivity.
Qed.
Print Assumptions C147_rational128.

Example C147_ex : is_s64 (-7) /\ (exists a b, rat64_new (-7) 3 = Ok a /\ rat64_new 9 (-4) = Ok b /\ rat64_compare a b = -1) /\
  exists a b, rat128_new (I128 1 (2 ^ 62)) (I128 0 (2 ^ 62)) = Ok a /\ rat128_new (I128 1 (2 ^ 61)) (I128 0 (2 ^ 61)) = Ok b /\ rat128_compare a b = Ok (-1) /\ rat128_compare_int a 1 = Ok 1 /\ rat128_compare_int a (-3) = Ok 1.
Proof.
  split; [vm_compute; intuition congruence|]. split.
  - eexists. eexists. split; [vm_compute; reflexivity|]. split; [vm_compute; reflexivity|]. vm_compute. reflexivity.
  - eexists. eexists. split; [vm_compute; reflexivity|]. split; [vm_compute; reflexivity|]. split; [vm_compute; reflexivity|]. split; vm_compute; reflexivity.
Qed.

(** Without room they are not ordered: 2^126 / 2^126 is found greater than 4. *)
Theorem C147_overflow_refuted : exists n d r b, wf n /\ wf d /\ sval n = sval d /\ 0 < sval d /\ rat128_new n d = Ok r /\ stands r (sval n) (sval d) /\
  1 < b < 2 ^ 63 /\ rat128_compare_int r b = Ok 1 /\ exists a, rat128_int b = Ok a /\ rat128_compare a r = Ok (-1).
Proof.
  exists (I128 0 (2 ^ 62)), (I128 0 (2 ^ 62)). eexists. exists 4.
  assert (W : wf (I128 0 (2 ^ 62))) by (vm_compute; intuition congruence).
  split; [exact W|]. split; [exact W|]. split; [reflexivity|]. split; [reflexivity|]. split; [vm_compute; reflexivity|]. split.
  - unfold stands. cbn [n128 d128 sg128 is_int]. split; [exact W|]. split; [exact W|]. split; [reflexivity|]. split; [reflexivity|]. split; [reflexivity|]. discriminate.
  - split; [nums; lia|]. split; [vm_compute; reflexivity|]. eexists. split; [vm_compute; reflexivity|]. vm_compute. reflexivity.
Qed.
Print Assumptions C147_overflow_refuted.
