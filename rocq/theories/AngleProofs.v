(** * Proofs about the edge of the greatest angle *)
From Coq Require Import List Arith Bool ZArith QArith Lia.
From Verif Require Import Common WideModel WideSpec WideProofs WideProps HEdgeModel HEdgeSpec HEdgeProofs AngleModel AngleSpec.
Import ListNotations.
Local Open Scope nat_scope.

Lemma elt_trans x y z : elt x y -> elt y z -> elt x z.
Proof. destruct x as [|a|], y as [|b|], z as [|c|]; cbn; try tauto. apply Qlt_trans. Qed.
Lemma elt_neg x y z : ~ elt x y -> ~ elt y z -> ~ elt x z.
Proof.
  destruct x as [|a|], y as [|b|], z as [|c|]; cbn; try tauto. intros h1 h2 h3. apply Qnot_lt_le in h1, h2.
  apply (Qlt_not_le a c h3). now apply Qle_trans with b.
Qed.
Lemma elt_asym x y : elt x y -> ~ elt y x.
Proof. destruct x as [|a|], y as [|b|]; cbn; try tauto. intros h. apply Qle_not_lt. now apply Qlt_le_weak. Qed.

Lemma new_is n d : fits (n, d) -> rat64_new n d = Ok (R64 (Z.abs n) (Z.abs d) (Z.sgn n * (if d <? 0 then -1 else 1)))%Z.
Proof.
  unfold fits. cbn [fst snd]. intros (h1 & h2). unfold rat64_new, sneg.
  destruct (Z.eqb_spec n (- 2 ^ 63)); [lia|]. destruct (Z.eqb_spec d (- 2 ^ 63)); [lia|].
  destruct (Z.ltb_spec 0 n); [|destruct (Z.ltb_spec n 0)]; cbn [obind]; (destruct (Z.ltb_spec 0 d); [|destruct (Z.ltb_spec d 0)]; cbn [obind]);
    rewrite ?wrap_small by (nums; lia); destruct (Z.ltb_spec d 0); try lia; f_equal; f_equal; lia.
Qed.
Lemma nan_is n d a : fits (n, d) -> rat64_new n d = Ok a -> (is_nan a = true <-> n = 0%Z /\ d = 0%Z).
Proof.
  intros h e. rewrite (new_is n d h) in e. injection e as <-. unfold is_nan. cbn [sg64 d64]. clear h. rewrite andb_true_iff, !Z.eqb_eq.
  destruct n, d; cbn; split; intros (u & v); split; congruence.
Qed.
Lemma cmp_ok n1 d1 n2 d2 a b : fits (n1, d1) -> fits (n2, d2) -> rat64_new n1 d1 = Ok a -> rat64_new n2 d2 = Ok b ->
  ~ (n1 = 0%Z /\ d1 = 0%Z) -> ~ (n2 = 0%Z /\ d2 = 0%Z) -> let c := rat64_compare a b in
  ((c < 0)%Z -> elt (value (n1, d1)) (value (n2, d2))) /\ (c = 0%Z -> ~ elt (value (n2, d2)) (value (n1, d1))) /\
  (~ (c < 0)%Z -> ~ elt (value (n1, d1)) (value (n2, d2))).
Proof.
  intros f1 f2 e1 e2 k1 k2 c. pose proof f1 as (g1 & g2). pose proof f2 as (g3 & g4). cbn [fst snd] in g1, g2, g3, g4.
  destruct (C147_rational64 n1 d1 n2 d2) as (a' & b' & q1 & q2 & q3 & q4 & q5); [unfold is_s64; clear - g1; lia|unfold is_s64; clear - g2; lia|unfold is_s64; clear - g3; lia|unfold is_s64; clear - g4; lia|clear - g1; lia|clear - g2; lia|clear - g3; lia|clear - g4; lia|].
  assert (a' = a) as -> by congruence. assert (b' = b) as -> by congruence. fold c in q3, q4, q5. unfold value.
  destruct (Z.eqb_spec d1 0) as [z1|z1], (Z.eqb_spec d2 0) as [z2|z2].
  - clear q3 q4 q5. subst d1 d2. rewrite (new_is n1 0 f1) in e1. rewrite (new_is n2 0 f2) in e2. injection e1 as <-. injection e2 as <-.
    assert (hc : c = if negb (Z.sgn n1 =? Z.sgn n2)%Z then (Z.sgn n1 - Z.sgn n2)%Z else 0%Z).
    { unfold c, rat64_compare. cbn [sg64 n64 d64]. change (if (0 <? 0)%Z then (-1)%Z else 1%Z) with 1%Z. rewrite !Z.mul_1_r.
      destruct (Z.eqb_spec (Z.sgn n1) (Z.sgn n2)); cbn [negb]; [|reflexivity]. destruct (Z.eqb_spec (Z.sgn n1) 0); [reflexivity|].
      change (Z.abs 0) with 0%Z. destruct (umul_ok (Z.abs n1) 0) as (w1 & v1); [clear - g1; nums; lia|clear; nums; lia|].
      destruct (umul_ok 0 (Z.abs n2)) as (w2 & v2); [clear; nums; lia|clear - g3; nums; lia|].
      rewrite (ucmp_ok _ _ w1 w2), v1, v2, Z.mul_0_r, Z.mul_0_l. cbn [Z.sub Z.sgn Z.add Z.opp]. apply Z.mul_0_r || reflexivity. }
    clearbody c. subst c. clear f1 f2 g1 g2 g3 g4.
    destruct n1 as [|x|x]; [destruct k1; auto| |]; (destruct n2 as [|y|y]; [destruct k2; auto| |]); cbn; (split; [|split]); try tauto; lia.
  - assert (h : n1 <> 0%Z) by (intros z; apply k1; auto). specialize (q4 z1 h z2). clear - q4 h.
    destruct (Z.ltb_spec n1 0); cbn [elt]; (split; [|split]); try tauto; lia.
  - assert (h : n2 <> 0%Z) by (intros z; apply k2; auto). specialize (q5 z1 z2 h). clear - q5 h.
    destruct (Z.ltb_spec n2 0); cbn [elt]; (split; [|split]); try tauto; lia.
  - destruct (q3 z1 z2) as (o1 & o2 & o3). cbn [elt]. split; [apply o1|]. split.
    + intros z q. apply o3 in q. clear - z q. lia.
    + intros z q. apply o1 in q. contradiction.
Qed.

Section Angle.
  Variables (marked : nat -> bool) (cot : nat -> Z * Z) (opposite : nat -> bool) (turn : nat -> nat -> bool).
  Definition nanp (e : nat) : Prop := fst (cot e) = 0%Z /\ snd (cot e) = 0%Z.
  Definition angle_inv (seen : list nat) (best : option (nat * rat64)) : Prop :=
    match best with
    | None => forall e, In e seen -> marked e = true -> nanp e
    | Some (m, b) => In m seen /\ marked m = true /\ ~ nanp m /\
        exists b0, In b0 seen /\ ~ nanp b0 /\ fits (cot b0) /\ rat64_new (fst (cot b0)) (snd (cot b0)) = Ok b /\
          ~ elt (value (cot b0)) (value (cot m)) /\
          forall e, In e seen -> marked e = true -> ~ nanp e -> ~ elt (value (cot e)) (value (cot b0))
    end.
  Lemma step_ok seen best e : angle_inv seen best -> fits (cot e) -> (marked e = true -> nanp e -> opposite e = true) ->
    exists best1, angle_step marked cot opposite turn best e = Ok best1 /\ angle_inv (seen ++ [e]) best1.
  Proof.
    intros I F O. unfold angle_step.
    assert (keep : (marked e = true -> nanp e) -> angle_inv (seen ++ [e]) best).
    { intros h. destruct best as [(m, b)|]; cbn [angle_inv] in *.
      - destruct I as (i1 & i2 & i3 & b0 & i4 & i5 & i6 & i7 & i8 & i9). split; [apply in_or_app; auto|]. split; [exact i2|]. split; [exact i3|].
        exists b0. split; [apply in_or_app; auto|]. split; [exact i5|]. split; [exact i6|]. split; [exact i7|]. split; [exact i8|].
        intros x hx hm hn. apply in_app_iff in hx. destruct hx as [hx|[<-|[]]]; [now apply i9|]. destruct (hn (h hm)).
      - intros x hx hm. apply in_app_iff in hx. destruct hx as [hx|[<-|[]]]; [now apply I|now apply h]. }
    destruct (marked e) eqn:em; [|eexists; split; [reflexivity|]; apply keep; intros z; discriminate z].
    destruct (cot e) as (n, d) eqn:ec. cbn [fst snd]. pose proof (new_is n d F) as hn.
    match type of hn with _ = Ok ?x => set (a := x) in * end. rewrite hn. cbn [obind].
    pose proof (nan_is n d a F hn) as N. assert (NP : nanp e <-> n = 0%Z /\ d = 0%Z) by (unfold nanp; rewrite ec; reflexivity).
    destruct (is_nan a).
    { assert (nanp e) by (apply NP, N; reflexivity). rewrite (O eq_refl H). eexists. split; [reflexivity|]. now apply keep. }
    assert (nn : ~ nanp e) by (intros z; apply NP, N in z; discriminate z).
    assert (nn' : ~ (n = 0%Z /\ d = 0%Z)) by (now rewrite <- NP).
    assert (irr : forall x, ~ elt x x) by (intros x q; exact (elt_asym x x q q)).
    destruct best as [(m, b)|]; cbn [angle_inv] in I.
    - destruct I as (i1 & i2 & i3 & b0 & i4 & i5 & i6 & i7 & i8 & i9). destruct (cot b0) as (n0, d0) eqn:e0. cbn [fst snd] in i7.
      assert (nb : ~ (n0 = 0%Z /\ d0 = 0%Z)) by (intros z; apply i5; unfold nanp; rewrite e0; exact z).
      destruct (cmp_ok n d n0 d0 a b F i6 hn i7 nn' nb) as (c1 & c2 & c3). cbv zeta.
      destruct (Z.ltb_spec (rat64_compare a b) 0) as [l|l].
      + eexists. split; [reflexivity|]. cbn [angle_inv]. split; [apply in_or_app; right; now left|]. split; [exact em|]. split; [exact nn|].
        exists e. split; [apply in_or_app; right; now left|]. split; [exact nn|]. rewrite ec. split; [exact F|]. split; [exact hn|]. split; [apply irr|].
        intros x hx hm hnx. apply in_app_iff in hx. destruct hx as [hx|[<-|[]]]; [|rewrite ec; apply irr].
        eapply elt_neg; [exact (i9 x hx hm hnx)|]. apply elt_asym. exact (c1 l).
      + assert (l' : ~ (rat64_compare a b < 0)%Z) by (clear - l; lia). specialize (c3 l').
        assert (all : forall x, In x (seen ++ [e]) -> marked x = true -> ~ nanp x -> ~ elt (value (cot x)) (value (n0, d0))).
        { intros x hx hm hnx. apply in_app_iff in hx. destruct hx as [hx|[<-|[]]]; [now apply i9|]. rewrite ec. exact c3. }
        destruct (Z.eqb_spec (rat64_compare a b) 0) as [z|z]; [destruct (turn m e)|]; cbn [andb]; eexists; (split; [reflexivity|]); cbn [angle_inv].
        * split; [apply in_or_app; right; now left|]. split; [exact em|]. split; [exact nn|]. exists b0. rewrite e0, ec.
          split; [apply in_or_app; auto|]. split; [exact i5|]. split; [exact i6|]. split; [exact i7|]. split; [exact (c2 z)|exact all].
        * split; [apply in_or_app; auto|]. split; [exact i2|]. split; [exact i3|]. exists b0. rewrite e0.
          split; [apply in_or_app; auto|]. split; [exact i5|]. split; [exact i6|]. split; [exact i7|]. split; [exact i8|exact all].
        * split; [apply in_or_app; auto|]. split; [exact i2|]. split; [exact i3|]. exists b0. rewrite e0.
          split; [apply in_or_app; auto|]. split; [exact i5|]. split; [exact i6|]. split; [exact i7|]. split; [exact i8|exact all].
    - eexists. split; [reflexivity|]. cbn [angle_inv]. split; [apply in_or_app; right; now left|]. split; [exact em|]. split; [exact nn|].
      exists e. split; [apply in_or_app; right; now left|]. split; [exact nn|]. rewrite ec. split; [exact F|]. split; [exact hn|]. split; [apply irr|].
      intros x hx hm hnx. apply in_app_iff in hx. destruct hx as [hx|[<-|[]]]; [destruct (hnx (I x hx hm))|rewrite ec; apply irr].
  Qed.
  Lemma angle_ok h first : forall l fuel e seen best, angle_inv seen best -> walk h e l first ->
    (forall x, In x (e :: l) -> fits (cot x)) -> (forall x, In x (e :: l) -> marked x = true -> nanp x -> opposite x = true) ->
    ~ In first l -> length l < fuel ->
    exists best1, angle_loop marked cot opposite turn fuel h first e best = Ok best1 /\ angle_inv (seen ++ e :: l) best1.
  Proof.
    induction l as [|m l ih]; intros fuel e seen best I hw F O nf hf; (destruct fuel as [|fuel]; [cbn in hf; lia|]); cbn [angle_loop];
      destruct (step_ok seen best e I (F e (or_introl eq_refl)) (O e (or_introl eq_refl))) as (best1 & -> & I1); cbn [obind].
    - destruct hw as (w1 & w2). destruct (nx_some _ _ _ w1) as (x & gx & xn). unfold get. rewrite gx. cbn [obind]. rewrite xn. cbn [deref obind].
      rewrite Nat.eqb_refl. eauto.
    - destruct hw as (w1 & w2 & w3). destruct (nx_some _ _ _ w1) as (x & gx & xn). unfold get. rewrite gx. cbn [obind]. rewrite xn. cbn [deref obind].
      destruct (Nat.eqb_spec m first) as [->|nm]; [destruct nf; now left|].
      destruct (ih fuel m (seen ++ [e]) best1 I1 w3) as (best2 & e2 & I2).
      + intros y hy. apply F. now right.
      + intros y hy. apply O. now right.
      + intros z. apply nf. now right.
      + cbn [length] in hf. lia.
      + exists best2. split; [exact e2|]. rewrite <- app_assoc in I2. exact I2.
  Qed.
End Angle.
