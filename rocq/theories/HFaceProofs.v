(** * Proofs about the faces of the result *)
From Coq Require Import List Arith Bool ZArith Lia.
From Verif Require Import Common HEdgeModel HEdgeSpec HEdgeProofs HPartSpec HPartProofs HCopyModel HCopySpec HCopyProofs HFaceModel HFaceSpec.
Import ListNotations.

Lemma walk_next h l : forall a b x, walk h a l b -> pv h b = Some x -> nx h x = Some b.
Proof.
  induction l as [|c l ih]; intros a b x hw hx; cbn [walk] in hw.
  - destruct hw as (e1 & e2). congruence.
  - destruct hw as (_ & _ & hw). exact (ih c b x hw hx).
Qed.
Lemma circle_next h l e p : circle h l -> In e l -> pv h e = Some p -> nx h p = Some e.
Proof.
  intros hc he hp. destruct (in_split _ _ he) as (l1 & l2 & ->). rewrite circle_rot in hc. exact (walk_next h _ _ _ _ hc hp).
Qed.
Lemma circle_has h l e : circle h l -> In e l -> exists p, pv h e = Some p.
Proof.
  intros hc he. destruct (in_split _ _ he) as (l1 & l2 & ->). rewrite circle_rot in hc.
  assert (H : forall l a b, walk h a l b -> exists p, pv h b = Some p).
  { induction l as [|c l ih]; intros a b hw; cbn [walk] in hw; [destruct hw; eauto|]. destruct hw as (_ & _ & hw). eauto. }
  eauto.
Qed.
Lemma nodup_snoc (l : list nat) x : NoDup l -> ~ In x l -> NoDup (l ++ [x]).
Proof.
  intros h1 h2. induction l as [|y l ih]; cbn [app]; [repeat constructor; intros []|]. apply NoDup_cons_iff in h1. destruct h1 as (a & b).
  constructor; [|apply ih; [exact b|intros z; apply h2; now right]]. rewrite in_app_iff. intros [z|[<-|[]]]; [exact (a z)|]. apply h2. now left.
Qed.
Lemma nodup_seq_map (g : nat -> nat) m : (forall i j, i < j -> j < m -> g i <> g j) -> NoDup (map g (seq 0 m)).
Proof.
  induction m as [|m ih]; intros h; [constructor|]. rewrite seq_S, map_app. cbn [map plus].
  apply nodup_snoc; [apply ih; intros i j h1 h2; apply h; lia|].
  intros hi. apply in_map_iff in hi. destruct hi as (i & e & hi). apply in_seq in hi. apply (h i m); [lia|lia|exact e].
Qed.

Section Face.
  Variables (h : hull) (f : nat -> list nat) (vs : list nat).
  Hypothesis W : whole h f.
  Hypothesis closed : forall u e t, In u vs -> In e (f u) -> tg h e = Some t -> In t vs.

  Definition has (e : nat) : Prop := exists u, In u vs /\ In e (f u).
  Definition phi (e : nat) : nat := match rv h e with Some r => match pv h r with Some p => p | None => 0 end | None => 0 end.
  Definition it (k e : nat) : nat := Nat.iter k phi e.
  Lemma phi_ok e : has e -> exists r, rv h e = Some r /\ rv h r = Some e /\ pv h r = Some (phi e) /\ nx h (phi e) = Some r /\ has (phi e).
  Proof.
    intros (u & hu & he). pose proof W as (c1 & _ & _ & _ & c5). destruct (c5 u e he) as (r & t & k1 & k2 & k3 & k4 & k5 & k6).
    destruct (circle_has h (f t) r (c1 t) k4) as (p & hp). exists r. unfold phi. rewrite k1, hp.
    split; [reflexivity|]. split; [exact k5|]. split; [reflexivity|]. split; [exact (circle_next h (f t) r p (c1 t) k4 hp)|].
    exists t. split; [exact (closed u e t hu he k2)|]. exact (circle_prev h (f t) r p (c1 t) k4 hp).
  Qed.
  Lemma phi_inj a b : has a -> has b -> phi a = phi b -> a = b.
  Proof.
    intros ha hb e. destruct (phi_ok a ha) as (r & a1 & a2 & a3 & a4 & _), (phi_ok b hb) as (s & b1 & b2 & b3 & b4 & _).
    rewrite e in a4. assert (s = r) as -> by congruence. congruence.
  Qed.
  Lemma it_S k e : it (S k) e = phi (it k e).
  Proof. reflexivity. Qed.
  Lemma it_phi k e : it k (phi e) = it (S k) e.
  Proof. induction k as [|k ih]; [reflexivity|]. now rewrite it_S, ih. Qed.
  Lemma it_add j k e : it (j + k) e = it j (it k e).
  Proof. induction j as [|j ih]; [reflexivity|]. cbn [plus]. now rewrite !it_S, ih. Qed.
  Lemma it_has k e : has e -> has (it k e).
  Proof. intros he. induction k as [|k ih]; [exact he|]. rewrite it_S. now destruct (phi_ok _ ih) as (r & _ & _ & _ & _ & q). Qed.
  Lemma it_inj k a b : has a -> has b -> it k a = it k b -> a = b.
  Proof.
    intros ha hb. induction k as [|k ih]; [trivial|]. rewrite !it_S. intros e. apply ih. apply phi_inj; [now apply it_has|now apply it_has|exact e].
  Qed.
  Lemma cycle e : has e -> exists k, 0 < k /\ k <= length (flat_map f vs) /\ it k e = e.
  Proof.
    intros he. set (el := flat_map f vs). set (m := length el).
    destruct (in_dec Nat.eq_dec e (map (fun i => it i e) (seq 1 m))) as [hi|hn].
    { apply in_map_iff in hi. destruct hi as (k & e1 & hk). apply in_seq in hk. exists k. split; [lia|]. split; [lia|exact e1]. }
    exfalso. assert (ND : NoDup (map (fun i => it i e) (seq 0 (S m)))).
    { apply nodup_seq_map. intros i j h1 h2 q. apply hn. apply in_map_iff. exists (j - i). split; [|apply in_seq; lia].
      apply (it_inj i); [now apply it_has|exact he|]. rewrite <- it_add. replace (i + (j - i)) with j by lia. now rewrite q. }
    assert (incl (map (fun i => it i e) (seq 0 (S m))) el).
    { intros x hx. apply in_map_iff in hx. destruct hx as (i & <- & _). destruct (it_has i e he) as (u & hu & hx).
      apply in_flat_map. eauto. }
    pose proof (NoDup_incl_length ND H) as q. rewrite map_length, seq_length in q. fold m in q. lia.
  Qed.

  Definition orb (a b : nat) : Prop := exists k, it k a = b.
  Lemma orb_trans a b c : orb a b -> orb b c -> orb a c.
  Proof. intros (i & <-) (j & <-). exists (j + i). apply it_add. Qed.
  Lemma it_mul k a m : it k a = a -> it (m * k) a = a.
  Proof. intros e. induction m as [|m ih]; [reflexivity|]. cbn [Nat.mul]. rewrite it_add, ih. exact e. Qed.
  Lemma orb_sym a b : has a -> orb a b -> orb b a.
  Proof.
    intros ha (i & <-). destruct (cycle a ha) as (k & k1 & _ & k2). exists (i * k - i). rewrite <- it_add.
    replace (i * k - i + i) with (i * k) by nia. now apply it_mul.
  Qed.

  (** The walk along a face clears the edges of the face. *)
  Lemma walk_ok e d : forall ec x fuel, has x -> 0 < d -> d <= fuel -> it d x = e ->
    exists ec' d', face_walk fuel h ec e x = Ok ec' /\ 0 < d' /\ it d' x = e /\
      (forall y, (exists j, j < d' /\ it j x = y) -> ec' y = None) /\ (forall y, (forall j, j < d' -> it j x <> y) -> ec' y = ec y).
  Proof.
    induction d as [|d ih]; intros ec x fuel hx hd hf e1; [lia|]. destruct fuel as [|fuel]; [lia|]. cbn [face_walk].
    destruct (phi_ok x hx) as (r & a1 & a2 & a3 & a4 & a5). destruct (rv_get _ _ _ a1) as (ex & g1 & g2 & _). rewrite g1. cbn [obind].
    rewrite g2. cbn [deref obind]. destruct (pv_some _ _ _ a3) as (er & g3 & g4). unfold get. rewrite g3. cbn [obind]. rewrite g4. cbn [deref obind].
    destruct (Nat.eqb_spec (phi x) e) as [q|q].
    - exists (wr ec x None), 1. split; [reflexivity|]. split; [lia|]. split; [exact q|]. split.
      + intros y (j & hj & <-). assert (j = 0) as -> by lia. apply wr_same.
      + intros y hy. apply wr_other. intros ->. apply (hy 0); [lia|reflexivity].
    - destruct d as [|d]; [exfalso; apply q; exact e1|].
      destruct (ih (wr ec x None) (phi x) fuel a5) as (ec' & d' & b1 & b2 & b3 & b4 & b5); [lia|lia|rewrite it_phi; exact e1|].
      exists ec', (S d'). split; [exact b1|]. split; [lia|]. split; [rewrite <- it_phi; exact b3|]. split.
      + intros y (j & hj & <-). destruct j as [|j].
        * destruct (in_dec Nat.eq_dec x (map (fun j => it j (phi x)) (seq 0 d'))) as [z|z].
          -- apply b4. apply in_map_iff in z. destruct z as (j & z1 & z2). apply in_seq in z2. exists j. split; [lia|exact z1].
          -- cbn [it Nat.iter]. rewrite b5; [apply wr_same|]. intros j hj' z1. apply z. apply in_map_iff. exists j. split; [exact z1|apply in_seq; lia].
        * apply b4. exists j. split; [lia|]. now rewrite it_phi.
      + intros y hy. rewrite b5.
        * apply wr_other. intros ->. apply (hy 0); [lia|reflexivity].
        * intros j hj z. apply (hy (S j)); [lia|]. rewrite <- it_phi. exact z.
  Qed.
  Lemma face_ok ec e fuel : has e -> length (flat_map f vs) <= fuel ->
    exists ec', face_walk fuel h ec e e = Ok ec' /\ (forall y, orb e y -> ec' y = None) /\ (forall y, ~ orb e y -> ec' y = ec y).
  Proof.
    intros he hf. destruct (cycle e he) as (k & k1 & k2 & k3).
    destruct (walk_ok e k ec e fuel he k1) as (ec' & d & b1 & b2 & b3 & b4 & b5); [lia|exact k3|].
    exists ec'. split; [exact b1|]. split.
    - intros y (m & <-). apply b4. induction m as [|m (j & j1 & j2)]; [exists 0; split; [lia|reflexivity]|].
      rewrite it_S, <- j2, <- it_S. destruct (Nat.eq_dec (S j) d) as [->|]; [exists 0; split; [lia|symmetry; exact b3]|].
      exists (S j). split; [lia|reflexivity].
    - intros y hy. apply b5. intros j _ z. apply hy. exists j. exact z.
  Qed.

  Variable ec0 : nat -> option nat.
  Hypothesis all_copied : forall e, has e -> exists i, ec0 e = Some i.
  Definition c0 (e : nat) : nat := match ec0 e with Some i => i | None => 0 end.
  Definition covered (es : list nat) (y : nat) : Prop := exists a, In a es /\ orb a y.
  Fixpoint apart (es : list nat) : Prop := match es with [] => True | a :: r => (forall b, In b r -> ~ orb a b) /\ apart r end.
  Lemma apart_snoc es e : apart es -> ~ covered es e -> apart (es ++ [e]).
  Proof.
    induction es as [|a es ih]; intros h1 h2; cbn [app apart]; [split; [intros b []|exact I]|]. destruct h1 as (h1 & h3). split.
    - intros b hb. apply in_app_iff in hb. destruct hb as [hb|[<-|[]]]; [now apply h1|]. intros q. apply h2. exists a. split; [now left|exact q].
    - apply ih; [exact h3|]. intros (x & hx & q). apply h2. exists x. split; [now right|exact q].
  Qed.
  Definition finv (ec : nat -> option nat) (fs es : list nat) : Prop :=
    fs = map c0 es /\ (forall a, In a es -> has a) /\ apart es /\
    (forall y, has y -> (ec y = None <-> covered es y)) /\ (forall y, has y -> ec y <> None -> ec y = ec0 y).

  Lemma edge_ok inner ec fs es e : finv ec fs es -> has e -> length (flat_map f vs) <= inner ->
    exists ec1 fs1 es1, (match ec e with
             | Some c => obind (face_walk inner h ec e e) (fun ec1 => Ok (ec1, fs ++ [c]))
             | None => Ok (ec, fs)
             end) = Ok (ec1, fs1) /\ finv ec1 fs1 es1 /\ incl es es1 /\ covered es1 e.
  Proof.
    intros F he hl. pose proof F as (f1 & f2 & f3 & f4 & f5). destruct (ec e) as [c|] eqn:ee.
    - destruct (face_ok ec e inner he hl) as (ec1 & w1 & w2 & w3). rewrite w1. cbn [obind]. exists ec1, (fs ++ [c]), (es ++ [e]).
      split; [reflexivity|]. assert (NC : ~ covered es e) by (intros q; apply (f4 e he) in q; congruence).
      split; [|split; [apply incl_appl, incl_refl|exists e; split; [apply in_or_app; right; now left|exists 0; reflexivity]]].
      split; [|split; [|split; [|split]]].
      + rewrite map_app, <- f1. cbn [map]. unfold c0. rewrite <- (f5 e he), ee by congruence. reflexivity.
      + intros a ha. apply in_app_iff in ha. destruct ha as [ha|[<-|[]]]; [now apply f2|exact he].
      + now apply apart_snoc.
      + intros y hy. split.
        * intros q. assert (D : orb e y \/ ~ orb e y).
          { destruct (cycle e he) as (k & k1 & k2 & k3).
            destruct (in_dec Nat.eq_dec y (map (fun i => it i e) (seq 0 k))) as [z|z].
            - left. apply in_map_iff in z. destruct z as (i & z & _). now exists i.
            - right. intros (m & hm). apply z. apply in_map_iff. exists (m mod k). split; [|apply in_seq; pose proof (Nat.mod_upper_bound m k); lia].
              rewrite <- hm. rewrite (Nat.div_mod m k) at 2 by lia. rewrite (Nat.add_comm (k * _)), it_add, Nat.mul_comm, it_mul by exact k3. reflexivity. }
          destruct D as [D|D].
          -- exists e. split; [apply in_or_app; right; now left|exact D].
          -- rewrite w3 in q by exact D. apply (f4 y hy) in q. destruct q as (a & ha & q). exists a. split; [apply in_or_app; now left|exact q].
        * intros (a & ha & q). apply in_app_iff in ha. destruct ha as [ha|[<-|[]]]; [|now apply w2].
          rewrite w3; [apply (f4 y hy); exists a; auto|]. intros q2. apply NC. exists a. split; [exact ha|].
          eapply orb_trans; [exact q|]. now apply orb_sym.
      + intros y hy q. assert (D : ~ orb e y) by (intros q2; apply q; now apply w2). rewrite w3 in q |- * by exact D. now apply f5.
    - exists ec, fs, es. split; [reflexivity|]. split; [exact F|]. split; [apply incl_refl|]. now apply (f4 e he).
  Qed.
  Lemma covered_incl es es1 y : incl es es1 -> covered es y -> covered es1 y.
  Proof. intros hi (a & ha & q). exists a. auto. Qed.

  Lemma ringf_ok inner v first : In v vs -> length (flat_map f vs) <= inner -> forall l fuel ec fs es e, finv ec fs es -> walk h e l first ->
    incl (e :: l) (f v) -> ~ In first l -> length l < fuel ->
    exists ec1 fs1 es1, ring_faces fuel inner h ec first e fs = Ok (ec1, fs1) /\ finv ec1 fs1 es1 /\ incl es es1 /\
      forall x, In x (e :: l) -> covered es1 x.
  Proof.
    intros hv hl. induction l as [|m l ih]; intros fuel ec fs es e F hw hi nf hf; (destruct fuel as [|fuel]; [cbn in hf; lia|]); cbn [ring_faces];
      (assert (he : has e) by (exists v; split; [exact hv|apply hi; now left]));
      destruct (edge_ok inner ec fs es e F he hl) as (ec1 & fs1 & es1 & a1 & a2 & a3 & a4); rewrite a1; cbn [obind].
    - destruct hw as (w1 & w2). destruct (nx_some _ _ _ w1) as (x & gx & xn). unfold get. rewrite gx. cbn [obind]. rewrite xn. cbn [deref obind].
      rewrite Nat.eqb_refl. exists ec1, fs1, es1. split; [reflexivity|]. split; [exact a2|]. split; [exact a3|]. intros y [<-|[]]. exact a4.
    - destruct hw as (w1 & w2 & w3). destruct (nx_some _ _ _ w1) as (x & gx & xn). unfold get. rewrite gx. cbn [obind]. rewrite xn. cbn [deref obind].
      destruct (Nat.eqb_spec m first) as [->|nm]; [destruct nf; now left|].
      destruct (ih fuel ec1 fs1 es1 m a2 w3) as (ec2 & fs2 & es2 & b1 & b2 & b3 & b4).
      + intros y hy. apply hi. now right.
      + intros z. apply nf. now right.
      + cbn [length] in hf. lia.
      + exists ec2, fs2, es2. split; [exact b1|]. split; [exact b2|]. split; [eapply incl_tran; eassumption|].
        intros y [<-|hy]; [eapply covered_incl; eassumption|now apply b4].
  Qed.
  Lemma facesloop_ok fuel inner : length (flat_map f vs) <= inner -> length (flat_map f vs) <= fuel -> forall us ec fs es, incl us vs -> finv ec fs es ->
    exists fs1 es1 ec1, faces_loop fuel inner h ec us fs = Ok fs1 /\ finv ec1 fs1 es1 /\ incl es es1 /\
      forall u e, In u us -> In e (f u) -> covered es1 e.
  Proof.
    intros hl hl2. induction us as [|v us ih]; intros ec fs es hi F; cbn [faces_loop].
    { exists fs, es, ec. split; [reflexivity|]. split; [exact F|]. split; [apply incl_refl|intros u e []]. }
    assert (hv : In v vs) by (apply hi; now left). assert (hus : incl us vs) by (intros u hu; apply hi; now right).
    pose proof W as (c1 & c2 & c3 & _). specialize (c2 v). destruct (v_edges h v) as [first|].
    - destruct (in_split _ _ c2) as (l1 & l2 & hs). pose proof (c1 v) as C. pose proof (c3 v) as ND. rewrite hs in C, ND. rewrite circle_rot in C.
      destruct (ringf_ok inner v first hv hl (l2 ++ l1) fuel ec fs es first F C) as (ec1 & fs1 & es1 & a1 & a2 & a3 & a4).
      + intros y hy. rewrite hs. cbn [In] in hy. rewrite in_app_iff in *. cbn [In]. tauto.
      + apply NoDup_remove_2 in ND. intros z. apply ND. apply in_app_iff in z. apply in_app_iff. tauto.
      + assert (length (f v) <= length (flat_map f vs)).
        { clear - hv. induction vs as [|w ws ihw]; [destruct hv|]. cbn [flat_map]. rewrite app_length. destruct hv as [->|hv]; [lia|]. specialize (ihw hv). lia. }
        rewrite hs, app_length in H. cbn [length] in H. rewrite app_length. lia.
      + rewrite a1. cbn [obind]. destruct (ih ec1 fs1 es1 hus a2) as (fs2 & es2 & ec2 & b1 & b2 & b3 & b4).
        exists fs2, es2, ec2. split; [exact b1|]. split; [exact b2|]. split; [eapply incl_tran; eassumption|].
        intros u e [<-|hu] he; [|now apply (b4 u e)]. apply (covered_incl es1); [exact b3|]. apply a4. rewrite hs in he.
        cbn [In]. rewrite in_app_iff in *. cbn [In] in he. tauto.
    - destruct (ih ec fs es hus F) as (fs2 & es2 & ec2 & b1 & b2 & b3 & b4). exists fs2, es2, ec2. split; [exact b1|]. split; [exact b2|].
      split; [exact b3|]. intros u e [<-|hu] he; [rewrite c2 in he; destruct he|now apply (b4 u e)].
  Qed.
  Lemma faces_start : finv ec0 [] [].
  Proof.
    split; [reflexivity|]. split; [intros a []|]. split; [exact I|]. split; [|auto]. intros y hy. split.
    - intros q. destruct (all_copied y hy) as (i & hi). congruence.
    - intros (a & [] & _).
  Qed.
  Lemma apart_eq es : (forall a, In a es -> has a) -> apart es -> forall k k' a a', nth_error es k = Some a -> nth_error es k' = Some a' -> orb a a' -> k = k'.
  Proof.
    induction es as [|x es ih]; intros hh ha k k' a a' h1 h2 q; [destruct k; discriminate h1|]. destruct ha as (ha & hr).
    destruct k as [|k], k' as [|k']; [reflexivity| | |].
    - injection h1 as ->. cbn in h2. destruct (ha a' (nth_error_In _ _ h2) q).
    - injection h2 as ->. cbn in h1. destruct (ha a (nth_error_In _ _ h1)). apply orb_sym; [|exact q]. apply hh. right. exact (nth_error_In _ _ h1).
    - f_equal. eapply ih; try eassumption. intros y hy. apply hh. now right.
  Qed.
End Face.
