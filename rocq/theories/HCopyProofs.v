(** * Proofs about the copy of the convex hull *)
From Coq Require Import List Arith Bool ZArith Lia Permutation.
From Verif Require Import Common HEdgeModel HEdgeSpec HEdgeProofs HPartSpec HPartProofs HCopyModel HCopySpec.
Import ListNotations.

Lemma wr_same {A} (m : nat -> A) k v : wr m k v k = v.
Proof. unfold wr. now rewrite Nat.eqb_refl. Qed.
Lemma wr_other {A} (m : nat -> A) k v x : x <> k -> wr m k v x = m x.
Proof. intros h. unfold wr. destruct (Nat.eqb_spec x k); [contradiction|reflexivity]. Qed.

Section Copy.
  Variables (h : hull) (f : nat -> list nat) (v0 n : nat).
  Hypothesis W : whole h f.
  Hypothesis small : forall u, n <= u -> f u = [].
  Local Open Scope nat_scope.

  Definition cinv (st : copyst) : Prop :=
    (forall v i, vc st v = Some i <-> nth_error (olds st) i = Some v) /\
    (forall v, In v (olds st) -> reach h f [v0] v) /\
    (forall e i, ec st e = Some i -> i < osize st /\ (exists u iu, In e (f u) /\ vc st u = Some iu) /\
       exists r t j ti, rv h e = Some r /\ tg h e = Some t /\ ec st r = Some j /\ vc st t = Some ti /\
         o_target (oes st i) = Some ti /\ o_reverse (oes st i) = Some (Z.of_nat j - Z.of_nat i)%Z) /\
    (forall e e' i, ec st e = Some i -> ec st e' = Some i -> e = e') /\
    (forall i, i < osize st -> exists e, ec st e = Some i).
  Definition nextok (st : copyst) (e : nat) : Prop :=
    exists p i j, pv h e = Some p /\ ec st e = Some i /\ ec st p = Some j /\ o_next (oes st i) = Some (Z.of_nat j - Z.of_nat i)%Z.
  (** Only the edges [xs] may get another [next]. *)
  Definition grow (st st' : copyst) (xs : list nat) : Prop :=
    (forall v i, vc st v = Some i -> vc st' v = Some i) /\
    (forall e i, ec st e = Some i -> ec st' e = Some i) /\
    (forall e i, ec st e = Some i -> ~ In e xs -> o_next (oes st' i) = o_next (oes st i)).
  Lemma grow_refl st xs : grow st st xs.
  Proof. split; [auto|]. split; auto. Qed.
  Lemma grow_trans a b c xs : grow a b xs -> grow b c xs -> grow a c xs.
  Proof.
    intros (h1 & h2 & h3) (k1 & k2 & k3). split; [auto|]. split; [auto|]. intros e i he hx. rewrite (k3 e i (h2 e i he) hx). exact (h3 e i he hx).
  Qed.
  Lemma grow_incl a b xs ys : incl xs ys -> grow a b xs -> grow a b ys.
  Proof. intros hi (h1 & h2 & h3). split; [exact h1|]. split; [exact h2|]. intros e i he hx. apply (h3 e); auto. Qed.
  Lemma nextok_grow a b xs e : grow a b xs -> ~ In e xs -> nextok a e -> nextok b e.
  Proof.
    intros (h1 & h2 & h3) hx (p & i & j & k1 & k2 & k3 & k4). exists p, i, j. split; [exact k1|]. split; [auto|]. split; [auto|].
    rewrite (h3 e i k2 hx). exact k4.
  Qed.

  Lemma vertex_copy_ok st t : cinv st -> reach h f [v0] t ->
    exists i, snd (vertex_copy st t) = i /\ vc (fst (vertex_copy st t)) t = Some i /\ cinv (fst (vertex_copy st t)) /\
      grow st (fst (vertex_copy st t)) [] /\ ec (fst (vertex_copy st t)) = ec st /\ oes (fst (vertex_copy st t)) = oes st /\
      osize (fst (vertex_copy st t)) = osize st.
  Proof.
    intros (A & B & C & D & E0) ht. unfold vertex_copy. destruct (vc st t) as [i|] eqn:e.
    - exists i. cbn [fst snd]. split; [reflexivity|]. split; [exact e|]. split; [split; [exact A|]; auto|]. split; [apply grow_refl|auto].
    - cbn [fst snd vc ec oes osize olds]. exists (length (olds st)). split; [reflexivity|]. split; [apply wr_same|].
      assert (G : forall v i, vc st v = Some i -> wr (vc st) t (Some (length (olds st))) v = Some i).
      { intros v i hv. rewrite wr_other by congruence. exact hv. }
      split; [|split; [split; [exact G|split; auto]|auto]].
      split; [|split; [|split; [|split; [exact D|exact E0]]]]; cbn [vc ec oes osize olds].
      + intros v i. destruct (Nat.eq_dec v t) as [->|nv].
        * rewrite wr_same. split.
          -- intros q. injection q as <-. rewrite nth_error_app2, Nat.sub_diag by lia. reflexivity.
          -- intros q. destruct (Nat.lt_ge_cases i (length (olds st))) as [c|c].
             ++ rewrite nth_error_app1 in q by exact c. apply A in q. congruence.
             ++ assert (i < length (olds st ++ [t])) by (apply nth_error_Some; congruence). rewrite app_length in H. cbn in H.
                f_equal. lia.
        * rewrite wr_other by exact nv. rewrite A. split; intros q.
          -- rewrite nth_error_app1; [exact q|]. apply nth_error_Some. congruence.
          -- destruct (Nat.lt_ge_cases i (length (olds st))) as [c|c]; [now rewrite nth_error_app1 in q|].
             rewrite nth_error_app2 in q by exact c. destruct (i - length (olds st)) as [|z]; [injection q as ->; congruence|].
             destruct z; discriminate q.
      + intros v hv. apply in_app_iff in hv. destruct hv as [hv|[<-|[]]]; [now apply B|exact ht].
      + intros x i hx. destruct (C x i hx) as (c1 & (u & iu & c2 & c3) & r & t' & j & ti & d1 & d2 & d3 & d4 & d5 & d6).
        split; [exact c1|]. split; [exists u, iu; auto|]. exists r, t', j, ti. auto 10.
  Qed.

  Lemma edge_copy_ok st copied v e : cinv st -> In e (f v) -> vc st v = Some copied ->
    exists st', edge_copy h st copied e = Ok st' /\ cinv st' /\ grow st st' [] /\ exists c, ec st' e = Some c.
  Proof.
    intros I he hv. unfold edge_copy. destruct (ec st e) as [c|] eqn:ee.
    { exists st. split; [reflexivity|]. split; [exact I|]. split; [apply grow_refl|eauto]. }
    pose proof I as (A & B & C & D & E0). pose proof W as (_ & _ & _ & c4 & c5).
    destruct (c5 v e he) as (r & t & k1 & k2 & k3 & k4 & k5 & k6).
    destruct (rv_get _ _ _ k1) as (x & gx & rx & tx). destruct (rv_get _ _ _ k5) as (xr & gxr & _ & _).
    rewrite gx. cbn [obind]. rewrite rx. cbn [deref obind]. rewrite gxr. cbn [obind]. rewrite <- tx, k2. cbn [deref obind].
    assert (rn : ec st r = None).
    { destruct (ec st r) as [j|] eqn:er; [|reflexivity]. destruct (C r j er) as (_ & _ & r' & t' & j' & ti & d1 & _ & d3 & _).
      assert (r' = e) as -> by congruence. congruence. }
    assert (rt : reach h f [v0] t).
    { eapply reach_step; [apply (B v); apply A in hv; now apply nth_error_In in hv|exact he|exact k2]. }
    destruct (vertex_copy_ok st t I rt) as (ti & v1 & v2 & v3 & v4 & v5 & v6 & v7).
    destruct (vertex_copy st t) as [st1 ti'] eqn:ev. cbn [fst snd] in *. subst ti'.
    eexists. split; [reflexivity|]. set (s := osize st). destruct v3 as (A1 & B1 & C1 & D1 & E1). destruct v4 as (g1 & g2 & g3).
    assert (EC : forall y i, ec st y = Some i -> wr (wr (ec st1) e (Some s)) r (Some (s + 1)) y = Some i /\ i < s).
    { intros y i hy. rewrite !wr_other by congruence. rewrite v5. split; [exact hy|]. now apply C in hy. }
    assert (INV : forall y i, wr (wr (ec st1) e (Some s)) r (Some (s + 1)) y = Some i ->
              (y = r /\ i = s + 1) \/ (y = e /\ i = s) \/ (y <> r /\ y <> e /\ ec st y = Some i /\ i < s)).
    { intros y i. destruct (Nat.eq_dec y r) as [->|n1]; [rewrite wr_same; intros q; injection q as <-; auto|]. rewrite wr_other by exact n1.
      destruct (Nat.eq_dec y e) as [->|n2]; [rewrite wr_same; intros q; injection q as <-; auto|]. rewrite wr_other by exact n2.
      rewrite v5. intros q. right. right. split; [exact n1|]. split; [exact n2|]. split; [exact q|]. now apply C in q. }
    assert (Er : wr (wr (ec st1) e (Some s)) r (Some (s + 1)) r = Some (s + 1)) by apply wr_same.
    assert (Ee : wr (wr (ec st1) e (Some s)) r (Some (s + 1)) e = Some s) by (rewrite wr_other by congruence; apply wr_same).
    split; [|split].
    - split; [exact A1|]. split; [exact B1|]. cbn [vc ec oes osize olds]. split; [|split].
      + intros y i hy. destruct (INV y i hy) as [(-> & ->)|[(-> & ->)|(n1 & n2 & hy' & li)]].
        * split; [lia|]. split; [exists t, ti; auto|]. exists e, v, s, copied. rewrite wr_same. cbn [o_target o_reverse].
          split; [exact k5|]. split; [exact k6|]. split; [exact Ee|]. split; [auto|]. split; [reflexivity|]. f_equal. lia.
        * split; [lia|]. split; [exists v, copied; auto|]. exists r, t, (s + 1), ti. rewrite (wr_other _ (s + 1) _ s) by lia. rewrite (wr_same _ s). cbn [o_target o_reverse].
          split; [exact k1|]. split; [exact k2|]. split; [exact Er|]. split; [exact v2|]. split; [reflexivity|]. f_equal. lia.
        * destruct (C y i hy') as (c1 & (u & iu & c2 & c3) & r' & t' & j & ti' & d1 & d2 & d3 & d4 & d5 & d6).
          split; [lia|]. split; [exists u, iu; auto|]. exists r', t', j, ti'. rewrite (wr_other _ (s + 1) _ i), (wr_other _ s _ i) by lia. rewrite v6.
          split; [exact d1|]. split; [exact d2|]. split; [now apply EC|]. auto.
      + intros y y' i hy hy'. destruct (INV y i hy) as [(-> & ->)|[(-> & ->)|(n1 & n2 & z1 & li)]];
          destruct (INV y' _ hy') as [(-> & z)|[(-> & z)|(m1 & m2 & z2 & li')]]; try reflexivity; try lia.
        exact (D y y' i z1 z2).
      + intros i hi. destruct (Nat.eq_dec i (s + 1)) as [->|]; [eauto|]. destruct (Nat.eq_dec i s) as [->|]; [eauto|].
        destruct (E0 i) as (y & hy); [fold s; lia|]. exists y. now apply EC.
    - split; [exact g1|]. cbn [vc ec oes osize olds]. split; [intros y i hy; now apply EC|].
      intros y i hy _. destruct (EC y i hy) as (_ & li). rewrite (wr_other _ (s + 1) _ i), (wr_other _ s _ i) by lia. now rewrite v6.
    - exists s. exact Ee.
  Qed.

  Lemma set_next_ok st e c z : cinv st -> ec st e = Some c ->
    exists st', set_next st c z = Ok st' /\ cinv st' /\ grow st st' [e] /\ ec st' = ec st /\ vc st' = vc st /\ o_next (oes st' c) = Some z.
  Proof.
    intros (A & B & C & D & E0) he. unfold set_next. destruct (C e c he) as (lc & _). destruct (Nat.ltb_spec c (osize st)); [|lia].
    eexists. split; [reflexivity|]. cbn [vc ec oes osize olds]. split; [|split; [|split; [reflexivity|split; [reflexivity|now rewrite wr_same]]]].
    - split; [exact A|]. split; [exact B|]. cbn [vc ec oes osize olds]. split; [|split; [exact D|exact E0]].
      intros y i hy. destruct (C y i hy) as (c1 & c2 & r & t & j & ti & d1 & d2 & d3 & d4 & d5 & d6).
      split; [exact c1|]. split; [exact c2|]. exists r, t, j, ti. split; [exact d1|]. split; [exact d2|]. split; [exact d3|]. split; [exact d4|].
      destruct (Nat.eq_dec i c) as [->|ni]; [rewrite wr_same; auto|rewrite wr_other by exact ni; auto].
    - split; [auto|]. cbn [vc ec oes osize olds]. split; [auto|]. intros y i hy hx. rewrite wr_other; [reflexivity|].
      intros ->. apply hx. left. exact (D e y c he hy).
  Qed.

  Lemma ring_ok copied v first fc : forall l fuel st e pe p, cinv st -> walk h e l first -> pv h e = Some pe -> ec st pe = Some p ->
    ec st first = Some fc -> incl (e :: l) (f v) -> NoDup (first :: e :: l) -> vc st v = Some copied -> length l < fuel ->
    exists st', ring_loop fuel h st copied first e (Some p) fc = Ok st' /\ cinv st' /\ grow st st' (first :: e :: l) /\
      forall x, In x (first :: e :: l) -> nextok st' x.
  Proof.
    induction l as [|m l ih]; intros fuel st e pe p I hw hp ep ef hi nd hv hf; (destruct fuel as [|fuel]; [cbn in hf; lia|]); cbn [ring_loop];
      (destruct (edge_copy_ok st copied v e I (hi e (or_introl eq_refl)) hv) as (st1 & e1 & I1 & G1 & c & ce));
      rewrite e1; cbn [obind]; rewrite ce; cbn [deref obind];
      (destruct (set_next_ok st1 e c (Z.of_nat p - Z.of_nat c) I1 ce) as (st2 & e2 & I2 & G2 & q1 & q2 & q3)); rewrite e2; cbn [obind];
      assert (G12 : grow st st2 [e]) by (eapply grow_trans; [eapply grow_incl; [|exact G1]; intros y []|exact G2]);
      (assert (N2 : nextok st2 e) by (exists pe, c, p; split; [exact hp|]; rewrite q1; split; [exact ce|]; split; [apply G1; exact ep|exact q3])).
    - cbn [walk] in hw. destruct hw as (w1 & w2). destruct (nx_some _ _ _ w1) as (x & gx & xn). unfold get. rewrite gx. cbn [obind].
      rewrite xn. cbn [deref obind]. rewrite Nat.eqb_refl.
      destruct (set_next_ok st2 first fc (Z.of_nat c - Z.of_nat fc) I2) as (st3 & e3 & I3 & G3 & r1 & r2 & r3).
      { apply G12. exact ef. }
      exists st3. split; [exact e3|]. split; [exact I3|]. split.
      + eapply grow_trans; [eapply grow_incl; [|exact G12]|eapply grow_incl; [|exact G3]]; intros y [<-|[]]; cbn [In]; auto.
      + apply NoDup_cons_iff in nd. destruct nd as (n1 & _). intros y [<-|[<-|[]]].
        * exists e, fc, c. split; [exact w2|]. rewrite r1. split; [apply G12; exact ef|]. split; [rewrite q1; exact ce|exact r3].
        * eapply nextok_grow; [exact G3| |exact N2]. intros [->|[]]. apply n1. now left.
    - cbn [walk] in hw. destruct hw as (w1 & w2 & w3). destruct (nx_some _ _ _ w1) as (x & gx & xn). unfold get. rewrite gx. cbn [obind].
      rewrite xn. cbn [deref obind]. destruct (Nat.eqb_spec m first) as [->|nm].
      { apply NoDup_cons_iff in nd. destruct nd as (n1 & _). exfalso. apply n1. right. now left. }
      destruct (ih fuel st2 m e c I2 w3 w2) as (st3 & e3 & I3 & G3 & N3).
      + rewrite q1. exact ce.
      + apply G12. exact ef.
      + intros y hy. apply hi. now right.
      + apply NoDup_cons_iff in nd. destruct nd as (n1 & n2). apply NoDup_cons_iff in n2. constructor; [|apply n2].
        intros z. apply n1. now right.
      + rewrite q2. now apply G1.
      + cbn [length] in hf. lia.
      + exists st3. split; [exact e3|]. split; [exact I3|]. split.
        * eapply grow_trans; [eapply grow_incl; [|exact G12]|eapply grow_incl; [|exact G3]].
          -- intros y [<-|[]]. right. now left.
          -- intros y [<-|hy]; [now left|right; now right].
        * intros y [<-|[<-|hy]]; [apply N3; now left| |apply N3; now right].
          eapply nextok_grow; [exact G3| |exact N2]. apply NoDup_cons_iff in nd. destruct nd as (n1 & n2). apply NoDup_cons_iff in n2.
          intros [->|hy]; [apply n1; now left|now apply n2].
  Qed.

  Lemma vertex_ok inner st copied v : cinv st -> vc st v = Some copied -> length (f v) < inner ->
    exists st', copy_vertex inner h st copied v = Ok st' /\ cinv st' /\ grow st st' (f v) /\ forall x, In x (f v) -> nextok st' x.
  Proof.
    intros I hv hi. pose proof W as (c1 & c2 & c3 & _). specialize (c2 v). unfold copy_vertex. destruct (v_edges h v) as [first|].
    2:{ exists st. split; [reflexivity|]. split; [exact I|]. split; [apply grow_refl|]. rewrite c2. intros x []. }
    destruct (in_split _ _ c2) as (l1 & l2 & hs). pose proof (c1 v) as C. pose proof (c3 v) as ND. rewrite hs in C, ND. rewrite circle_rot in C.
    assert (ND' : NoDup (first :: l2 ++ l1)).
    { rewrite app_comm_cons. eapply Permutation_NoDup; [apply Permutation_app_comm|exact ND]. }
    assert (IN : forall x, In x (f v) <-> In x (first :: l2 ++ l1)).
    { intros x. rewrite hs. cbn [In]. rewrite !in_app_iff. cbn [In]. tauto. }
    assert (LL : length (f v) = S (length (l2 ++ l1))) by (rewrite hs, !app_length; cbn [length]; lia).
    remember (l2 ++ l1) as l eqn:hl. clear hl hs ND.
    destruct inner as [|inner]; [lia|]. cbn [ring_loop].
    destruct (edge_copy_ok st copied v first I c2 hv) as (st1 & e1 & I1 & G1 & c & ce). rewrite e1. cbn [obind]. rewrite ce. cbn [deref obind].
    destruct l as [|m l].
    - destruct C as (w1 & w2). destruct (nx_some _ _ _ w1) as (x & gx & xn). unfold get. rewrite gx. cbn [obind].
      rewrite xn. cbn [deref obind]. rewrite Nat.eqb_refl.
      destruct (set_next_ok st1 first c (Z.of_nat c - Z.of_nat c) I1 ce) as (st3 & e3 & I3 & G3 & r1 & r2 & r3).
      exists st3. split; [exact e3|]. split; [exact I3|]. split.
      + eapply grow_incl; [|eapply grow_trans; [eapply grow_incl; [|exact G1]|exact G3]]; [intros y hy; now apply IN|intros y []].
      + intros y hy. apply IN in hy. destruct hy as [<-|[]]. exists first, c, c. split; [exact w2|]. rewrite r1. auto.
    - destruct C as (w1 & w2 & w3). destruct (nx_some _ _ _ w1) as (x & gx & xn). unfold get. rewrite gx. cbn [obind].
      rewrite xn. cbn [deref obind]. destruct (Nat.eqb_spec m first) as [->|nm].
      { apply NoDup_cons_iff in ND'. destruct ND' as (n1 & _). exfalso. apply n1. now left. }
      destruct (ring_ok copied v first c l inner st1 m first c I1 w3 w2 ce ce) as (st3 & e3 & I3 & G3 & N3).
      + intros y hy. apply IN. now right.
      + exact ND'.
      + now apply G1.
      + cbn [length] in LL. lia.
      + exists st3. split; [exact e3|]. split; [exact I3|]. split.
        * eapply grow_trans; [eapply grow_incl; [|exact G1]|eapply grow_incl; [|exact G3]]; [intros y []|intros y hy; now apply IN].
        * intros y hy. apply N3. now apply IN.
  Qed.

  Lemma olds_few st : cinv st -> length (olds st) <= S n.
  Proof.
    intros (A & B & _). assert (ND : NoDup (olds st)).
    { apply NoDup_nth_error. intros i j hi e. destruct (nth_error (olds st) i) as [v|] eqn:ei; [|apply nth_error_None in ei; lia].
      symmetry in e. apply A in ei, e. congruence. }
    assert (incl (olds st) (v0 :: seq 0 n)).
    { intros v hv. specialize (B v hv). destruct B as [w [<-|[]]|u e t hu he ht]; [now left|]. right. apply in_seq.
      destruct W as (_ & _ & _ & _ & c5). destruct (c5 u e he) as (r & t' & k1 & k2 & k3 & k4 & _).
      assert (t' = t) as -> by congruence. destruct (Nat.lt_ge_cases t n) as [c|c]; [lia|]. rewrite (small t c) in k4. destruct k4. }
    pose proof (NoDup_incl_length ND H) as q. cbn [length] in q. rewrite seq_length in q. exact q.
  Qed.

  Definition done (st : copyst) (k : nat) : Prop := forall i u e, i < k -> nth_error (olds st) i = Some u -> In e (f u) -> nextok st e.
  Lemma loop_ok inner : edges n f < inner -> forall fuel st k, cinv st -> done st k -> S n <= fuel + k ->
    exists st', copy_loop fuel inner h st k = Ok st' /\ cinv st' /\ grow st st' (flat_map f (seq 0 n)) /\ done st' (length (olds st')).
  Proof.
    intros hi. induction fuel as [|fuel ih]; intros st k I hd hf; cbn [copy_loop]; destruct (nth_error (olds st) k) as [v|] eqn:ev.
    1:{ pose proof (olds_few st I). assert (k < length (olds st)) by (apply nth_error_Some; congruence). lia. }
    2:{ pose proof I as (A & _). assert (hv : vc st v = Some k) by now apply A.
      destruct (vertex_ok inner st k v I hv) as (st1 & e1 & I1 & G1 & N1).
      { destruct (Nat.lt_ge_cases v n) as [c|c]; [pose proof (edges_one n f v c); lia|]. rewrite (small v c). cbn. lia. }
      rewrite e1. cbn [obind]. destruct (ih st1 (k + 1) I1) as (st2 & e2 & I2 & G2 & D2).
      - intros i u e hk hu he. destruct (Nat.eq_dec i k) as [->|ni].
        + pose proof I1 as (A1 & _). apply A1 in hu. pose proof (proj1 G1 v k hv) as hv1. apply A1 in hu, hv1.
          assert (u = v) as -> by congruence. now apply N1.
        + assert (hu0 : nth_error (olds st) i = Some u).
          { assert (i < length (olds st)) by (assert (k < length (olds st)) by (apply nth_error_Some; congruence); lia).
            destruct (nth_error (olds st) i) as [u'|] eqn:eu; [|apply nth_error_None in eu; lia].
            apply A in eu. apply (proj1 G1) in eu. pose proof I1 as (A1 & _). apply A1 in eu. congruence. }
          apply (nextok_grow st st1 (f v)); [exact G1| |].
          * intros hx. pose proof W as (_ & _ & _ & c4 & _). assert (u = v) as -> by exact (c4 _ _ _ he hx).
            apply A in hu0. congruence.
          * apply (hd i u e); [lia|exact hu0|exact he].
      - lia.
      - exists st2. split; [exact e2|]. split; [exact I2|]. split; [|exact D2].
        eapply grow_trans; [eapply grow_incl; [|exact G1]|exact G2]. intros y hy. apply in_flat_map. exists v. split; [|exact hy].
        apply in_seq. destruct (Nat.lt_ge_cases v n) as [c|c]; [lia|]. rewrite (small v c) in hy. destruct hy. }
    all: exists st; split; [reflexivity|]; split; [exact I|]; split; [apply grow_refl|];
      intros i u e hk hu he; apply (hd i u e); [apply nth_error_None in ev; lia|exact hu|exact he].
  Qed.

  Lemma start_inv : cinv (fst (vertex_copy copy_new v0)) /\ vc (fst (vertex_copy copy_new v0)) v0 = Some 0.
  Proof.
    assert (I : cinv copy_new).
    { split; [intros v i; cbn; destruct i; split; discriminate|]. split; [intros v []|]. split; [intros e i q; discriminate q|].
      split; [intros e e' i q; discriminate q|intros i hi; cbn in hi; lia]. }
    destruct (vertex_copy_ok copy_new v0 I) as (i & a & b & c & _); [apply reach_start; now left|]. split; [exact c|].
    rewrite b, <- a. reflexivity.
  Qed.
  Lemma closed_ok st : cinv st -> done st (length (olds st)) -> vc st v0 <> None -> forall u, reach h f [v0] u -> exists i, vc st u = Some i.
  Proof.
    intros (A & B & C & _) hd h0 u hu. induction hu as [w [<-|[]]|u e t hu (i & ihu) he ht].
    - destruct (vc st v0) as [i|]; [eauto|contradiction].
    - destruct (hd i u e) as (p & i' & j & k1 & k2 & _); [|now apply A|exact he|].
      + apply nth_error_Some. apply A in ihu. congruence.
      + destruct (C e i' k2) as (_ & _ & r & t' & j' & ti & d1 & d2 & d3 & d4 & _). assert (t' = t) as -> by congruence. eauto.
  Qed.
End Copy.

Lemma shifted_ok st i j : j < osize st -> shifted st i (Some (Z.of_nat j - Z.of_nat i)%Z) = Some j.
Proof.
  intros hj. unfold shifted. replace (Z.of_nat i + (Z.of_nat j - Z.of_nat i))%Z with (Z.of_nat j) by lia.
  destruct (Z.leb_spec 0 (Z.of_nat j)); [|lia]. destruct (Z.ltb_spec (Z.of_nat j) (Z.of_nat (osize st))); [|lia].
  cbn [andb]. now rewrite Nat2Z.id.
Qed.
Definition at_ (st : copyst) (e : nat) : nat := match ec st e with Some i => i | None => 0 end.

Lemma copies_ok h f v0 st : whole h f -> cinv h f v0 st -> done h f st (length (olds st)) -> copies h f st (at_ st).
Proof.
  intros W I hd. pose proof I as (A & B & C & D & E0). pose proof W as (_ & _ & _ & c4 & c5).
  assert (K : forall iu u e, nth_error (olds st) iu = Some u -> In e (f u) -> ec st e = Some (at_ st e) /\ at_ st e < osize st).
  { intros iu u e hu he. destruct (hd iu u e) as (p & i & j & k1 & k2 & _); [apply nth_error_Some; congruence|exact hu|exact he|].
    unfold at_. rewrite k2. split; [reflexivity|]. now apply C in k2. }
  assert (NX : forall iu u e, nth_error (olds st) iu = Some u -> In e (f u) ->
            exists p, pv h e = Some p /\ next_edge_of_vertex st (at_ st e) = Some (at_ st p)).
  { intros iu u e hu he. destruct (hd iu u e) as (p & i & j & k1 & k2 & k3 & k4); [apply nth_error_Some; congruence|exact hu|exact he|].
    exists p. split; [exact k1|]. unfold at_. rewrite k2, k3. unfold next_edge_of_vertex.
    destruct (C e i k2) as (l1 & _). destruct (C p j k3) as (l2 & _). destruct (Nat.ltb_spec i (osize st)); [|lia].
    rewrite k4. now apply shifted_ok. }
  split; [|split; [|split]].
  - intros u e hu he. apply In_nth_error in hu. destruct hu as (iu & hu). now apply (K iu u e).
  - intros u e u' e' hu he hu' he' q. apply In_nth_error in hu, hu'. destruct hu as (iu & hu), hu' as (iu' & hu').
    destruct (K iu u e hu he) as (a1 & _), (K iu' u' e' hu' he') as (a2 & _). rewrite <- q in a2. exact (D e e' _ a1 a2).
  - intros i hi. destruct (E0 i hi) as (e & he). destruct (C e i he) as (_ & (u & iu & k1 & k2) & _).
    exists u, e. apply A in k2. apply nth_error_In in k2. split; [exact k2|]. split; [exact k1|]. unfold at_. now rewrite he.
  - intros iu u e hu he. destruct (K iu u e hu he) as (a1 & a2). destruct (C e _ a1) as (_ & _ & r & t & j & ti & d1 & d2 & d3 & d4 & d5 & d6).
    destruct (c5 u e he) as (r' & t' & k1 & k2 & k3 & k4 & k5 & k6). assert (r' = r) as -> by congruence. assert (t' = t) as -> by congruence.
    apply A in d4. destruct (NX iu u e hu he) as (p & p1 & p2). destruct (NX ti t r d4 k4) as (q & q1 & q2).
    assert (aj : at_ st r = j) by (unfold at_; now rewrite d3).
    destruct (C r j d3) as (l1 & _ & r'' & t'' & j'' & ti'' & f1 & f2 & f3 & f4 & f5 & f6). assert (t'' = u) as -> by congruence.
    apply A in f4. assert (RE : reverse_edge st (at_ st e) = Some (at_ st r)).
    { unfold reverse_edge. destruct (Nat.ltb_spec (at_ st e) (osize st)); [|lia]. rewrite d6, aj. now apply shifted_ok. }
    exists r, t, p, q, ti. split; [exact d1|]. split; [exact d2|]. split; [exact p1|]. split; [exact q1|]. split; [exact d4|].
    split; [|split; [|split; [exact RE|split; [exact p2|]]]].
    + unfold source_vertex. rewrite RE, aj. unfold target_vertex. destruct (Nat.ltb_spec j (osize st)); [|lia]. rewrite f5. f_equal.
      apply A in f4, hu. congruence.
    + unfold target_vertex. destruct (Nat.ltb_spec (at_ st e) (osize st)); [exact d5|lia].
    + unfold next_edge_of_face. rewrite RE. exact q2.
Qed.

Lemma walk_prev h l : forall a b x, walk h a l b -> pv h b = Some x -> In x (a :: l).
Proof.
  induction l as [|c l ih]; intros a b x hw hx; cbn [walk] in hw.
  - destruct hw as (_ & e). left. congruence.
  - destruct hw as (_ & _ & hw). right. exact (ih c b x hw hx).
Qed.
Lemma circle_prev h l e p : circle h l -> In e l -> pv h e = Some p -> In p l.
Proof.
  intros hc he hp. destruct (in_split _ _ he) as (l1 & l2 & ->). rewrite circle_rot in hc.
  pose proof (walk_prev h _ _ _ _ hc hp) as q. cbn [In] in q. rewrite in_app_iff in *. cbn [In]. tauto.
Qed.
