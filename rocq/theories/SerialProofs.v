(** * Saving, loading and comparing the collision configuration: lemmas *)
From Coq Require Import ZArith String List Bool Arith Lia Permutation Reals Lra.
From Verif Require Import Num NumFacts CollisionModel SerialModel SerialSpec.
From Verif Require TrajoptModel.
Import ListNotations.
Import TrajoptModel (run, Done, Thrown, Assert, rdo, rmap).

Lemma paireqb_eq p q : paireqb p q = true <-> p = q.
Proof. destruct p, q. unfold paireqb. cbn. rewrite andb_true_iff, !Nat.eqb_eq. split; [intros [-> ->]; auto|intros [= -> ->]; auto]. Qed.
Lemma paireqb_refl p : paireqb p p = true. Proof. apply paireqb_eq. reflexivity. Qed.
Lemma existsb_pair k l : existsb (paireqb k) l = true <-> In k l.
Proof. rewrite existsb_exists. split; [intros (x & H & E); apply paireqb_eq in E; subst; assumption|intros H; exists k; split; [assumption|apply paireqb_refl]]. Qed.
Lemma ordered_ordered a b : (fst (ordered_pair a b) <= snd (ordered_pair a b))%nat.
Proof. unfold ordered_pair. destruct (Nat.leb_spec a b); cbn; lia. Qed.
Lemma ordered_id a b : (a <= b)%nat -> ordered_pair a b = (a, b).
Proof. intros H. unfold ordered_pair. apply Nat.leb_le in H. rewrite H. reflexivity. Qed.

Section Facts.
  Context {T : Type} {NT : Num T}.

  Lemma pfind_in k c (l : list ((nat * nat) * T)) : NoDup (map fst l) -> (pfind k l = Some c <-> In (k, c) l).
  Proof.
    induction l as [|[k' c'] l IH]; cbn; intros N; [split; [discriminate|intros []]|]. inversion N as [|? ? N1 N2]; subst.
    destruct (paireqb k k') eqn:E.
    - apply paireqb_eq in E as ->. split; [intros [= ->]; auto|]. intros [[= ->]|H]; [reflexivity|]. destruct N1. apply (in_map fst) in H. exact H.
    - rewrite IH by assumption. split; [auto|]. intros [[= -> ->]|H]; [rewrite paireqb_refl in E; discriminate|assumption].
  Qed.
  Lemma pfind_none k (l : list ((nat * nat) * T)) : pfind k l = None <-> ~ In k (map fst l).
  Proof.
    induction l as [|[k' c'] l IH]; cbn; [tauto|]. destruct (paireqb k k') eqn:E.
    - apply paireqb_eq in E as ->. split; [discriminate|tauto].
    - rewrite IH. split; [intros H [->|X]; [rewrite paireqb_refl in E; discriminate|tauto]|tauto].
  Qed.
  Lemma perase_in k e (l : list ((nat * nat) * T)) : In e (perase k l) <-> In e l /\ fst e <> k.
  Proof.
    unfold perase. rewrite filter_In, negb_true_iff. split; intros [H1 H2]; split; try assumption.
    - intros E. rewrite <- E, paireqb_refl in H2. discriminate.
    - destruct (paireqb k (fst e)) eqn:E; [apply paireqb_eq in E; congruence|reflexivity].
  Qed.
  Lemma filter_nodup {A B} (f : A -> B) p l : NoDup (map f l) -> NoDup (map f (filter p l)).
  Proof.
    induction l as [|a l IH]; cbn; [constructor|]. intros H. inversion H as [|? ? H1 H2]; subst. destruct (p a); [|auto]. cbn. constructor; [|auto].
    intros X. apply H1. apply in_map_iff in X as (x & E & X). apply filter_In in X as [X _]. rewrite <- E. apply in_map, X.
  Qed.

  (** what the setters keep true *)
  Record wf (d : coeffs T) : Prop := {
    wf_keys : NoDup (map fst (cd_table d)); wf_ordered : forall k c, In (k, c) (cd_table d) -> (fst k <= snd k)%nat;
    wf_zero_nodup : NoDup (cd_zero d);
    wf_zero : forall k, In k (cd_zero d) <-> exists c, In (k, c) (cd_table d) /\ almost_equal c nzero = true
  }.
  Lemma wf_new c : wf (coeff_new c).
  Proof. constructor; cbn; [constructor|intros ? ? []|constructor|]. intros k. split; [intros []|intros (? & [] & _)]. Qed.
  Lemma wf_step d o : wf d -> wf (coeff_step d o).
  Proof.
    intros [W1 W2 W3 W4]. destruct o as [c|a b c]; cbn [coeff_step]; [constructor; assumption|]. set (k := ordered_pair a b).
    constructor; cbn [cd_table cd_zero].
    - cbn. constructor; [|apply filter_nodup; assumption]. intros X. apply in_map_iff in X as (e & E & X). apply perase_in in X as [_ X]. contradiction.
    - intros k' c' [[= <- <-]|X]; [apply ordered_ordered|]. apply perase_in in X as [X _]. eapply W2, X.
    - destruct (almost_equal c nzero).
      + destruct (existsb (paireqb k) (cd_zero d)) eqn:E; [assumption|]. constructor; [|assumption]. intros X. apply existsb_pair in X. congruence.
      + rewrite <- map_id at 1. apply filter_nodup. rewrite map_id. assumption.
    - intros k'. split.
      + intros X. destruct (almost_equal c nzero) eqn:Z.
        * assert (X' : k' = k \/ In k' (cd_zero d)) by (destruct (existsb _ _); [auto|destruct X; auto]).
          destruct (paireqb k' k) eqn:E; [apply paireqb_eq in E as ->; exists c; cbn; auto|].
          destruct X' as [->|X']; [rewrite paireqb_refl in E; discriminate|]. apply W4 in X' as (c' & X1 & X2). exists c'. split; [|assumption]. right.
          apply perase_in. split; [assumption|]. cbn. intros ->. rewrite paireqb_refl in E. discriminate.
        * apply filter_In in X as [X E]. apply W4 in X as (c' & X1 & X2). exists c'. split; [|assumption]. right. apply perase_in. split; [assumption|].
          cbn. intros ->. rewrite paireqb_refl in E. discriminate.
      + intros (c' & X & Z'). destruct X as [[= <- <-]|X].
        * rewrite Z'. destruct (existsb (paireqb k) (cd_zero d)) eqn:E; [apply existsb_pair, E|left; reflexivity].
        * apply perase_in in X as [X N]. cbn in N. assert (X' : In k' (cd_zero d)) by (apply W4; eauto).
          destruct (almost_equal c nzero).
          -- destruct (existsb _ _); [assumption|right; assumption].
          -- apply filter_In. split; [assumption|]. apply negb_true_iff. destruct (paireqb k k') eqn:E; [apply paireqb_eq in E; congruence|reflexivity].
  Qed.
  Lemma wf_run os : forall d, wf d -> wf (coeff_run d os).
  Proof. induction os as [|o os IH]; intros d W; [exact W|]. apply (IH (coeff_step d o)), wf_step, W. Qed.
  Lemma made_wf d : made d -> wf d.
  Proof. intros (c & os & ->). apply wf_run, wf_new. Qed.

  Lemma alike_tables d1 d2 : wf d1 -> wf d2 -> cd_default d1 = cd_default d2 -> Permutation (cd_table d1) (cd_table d2) -> alike d1 d2.
  Proof.
    intros W1 W2 D P. assert (Z : forall k, In k (cd_zero d1) <-> In k (cd_zero d2)).
    { intros k. rewrite (wf_zero _ W1), (wf_zero _ W2). split; intros (c & X & A); exists c; (split; [|assumption]); [eapply Permutation_in; eauto|]. eapply Permutation_in; [apply Permutation_sym, P|exact X]. }
    split; [assumption|]. split; [|split; [assumption|split]].
    - intros a b. unfold getCollisionCoeff. destruct (pfind (ordered_pair a b) (cd_table d1)) as [c|] eqn:E1.
      + apply pfind_in in E1; [|apply W1]. assert (X : In (ordered_pair a b, c) (cd_table d2)) by (eapply Permutation_in; eauto).
        apply pfind_in in X; [|apply W2]. rewrite X. reflexivity.
      + apply pfind_none in E1. assert (X : pfind (ordered_pair a b) (cd_table d2) = None).
        { apply pfind_none. intros X. apply E1. eapply Permutation_in; [|exact X]. apply Permutation_map, Permutation_sym, P. }
        rewrite X. assumption.
    - intros a b. unfold isZeroPair. apply eq_true_iff_eq. rewrite !existsb_pair. apply Z.
    - apply NoDup_Permutation; [apply W1|apply W2|apply Z].
  Qed.

  Lemma set_fresh_table (l : list ((nat * nat) * T)) : forall d, NoDup (map fst l) -> (forall k c, In (k, c) l -> (fst k <= snd k)%nat) ->
    (forall k, In k (map fst l) -> ~ In k (map fst (cd_table d))) ->
    let d' := coeff_run d (map (fun e => SetCoeff (fst (fst e)) (snd (fst e)) (snd e)) l) in
    cd_default d' = cd_default d /\ cd_table d' = rev l ++ cd_table d.
  Proof.
    induction l as [|[[a b] c] l IH]; intros d N O F; [split; reflexivity|]. cbn [map] in N. inversion N as [|? ? N1 N2]; subst.
    cbn [map fst snd]. change (coeff_run d (SetCoeff a b c :: ?l)) with (coeff_run (coeff_step d (SetCoeff a b c)) l).
    assert (Oab : ordered_pair a b = (a, b)) by (apply ordered_id; apply (O (a, b) c); left; reflexivity).
    assert (E : perase (a, b) (cd_table d) = cd_table d).
    { assert (F1 : ~ In (a, b) (map fst (cd_table d))) by (apply F; left; reflexivity). clear - F1. unfold perase.
      induction (cd_table d) as [|[k' c'] r IHr]; [reflexivity|]. cbn [filter fst]. destruct (paireqb (a, b) k') eqn:E.
      - apply paireqb_eq in E as <-. destruct F1. left. reflexivity.
      - cbn [negb]. rewrite IHr; [reflexivity|]. intros X. apply F1. right. exact X. }
    destruct (IH (coeff_step d (SetCoeff a b c))) as [I1 I2]; [assumption|intros; eapply O; right; eassumption| |].
    - cbn [coeff_step cd_table]. rewrite Oab, E. intros k X [<-|Y]; [contradiction|]. apply (F k); [right; assumption|assumption].
    - split; [rewrite I1; reflexivity|]. rewrite I2. cbn [coeff_step cd_table rev]. rewrite Oab, E, <- app_assoc. reflexivity.
  Qed.

  Lemma decode_encoded_pairs tn l : forall (d : coeffs T), decode_pairs tn (map encode_pair l) d =
    Done (Some (coeff_run d (map (fun e => SetCoeff (fst (fst e)) (snd (fst e)) (snd e)) l))).
  Proof. induction l as [|[[a b] c] l IH]; intros d; [reflexivity|]. cbn. rewrite IH. reflexivity. Qed.

  Lemma find_key_in name v (m : list (yaml T * yaml T)) : NoDup (keys m) -> In (YKey name, v) m -> find_key name m = Some v.
  Proof.
    induction m as [|[k w] m IH]; cbn; intros N H; [destruct H|]. inversion N as [|? ? N1 N2]; subst.
    destruct H as [[= -> ->]|H]; [rewrite String.eqb_refl; reflexivity|]. pose proof (IH N2 H) as E. destruct k; try exact E.
    destruct (String.eqb_spec name s) as [->|]; [|exact E]. destruct N1. apply (in_map fst) in H. exact H.
  Qed.
  Lemma find_key_out name (m : list (yaml T * yaml T)) : ~ In (YKey name) (keys m) -> find_key name m = None.
  Proof.
    induction m as [|[k w] m IH]; cbn; intros N; [reflexivity|]. assert (E : find_key name m = None) by (apply IH; tauto).
    destruct k; try exact E. destruct (String.eqb_spec name s) as [->|]; [destruct N; auto|exact E].
  Qed.
  Lemma says_set {A} m name (rd : yaml T -> run A) (P : yaml T -> A -> Prop) old x : NoDup (keys m) -> (forall v x, P v x -> rd v = Done x) ->
    says m name P old x -> set_if name rd (YMap m) old = Done x.
  Proof.
    intros N F [[H ->]|(v & H & X)]; unfold set_if, get.
    - rewrite find_key_out by assumption. reflexivity.
    - rewrite (find_key_in _ _ _ N H). apply F, X.
  Qed.
  Lemma num_reads v x : num_of v x -> as_double v = Done x. Proof. intros []; reflexivity. Qed.
  Lemma int_reads v x : int_of v x -> as_int (T := T) v = Done x.
  Proof. clear NT. intros [z H]. cbn [as_int]. replace (- 2 ^ 31 <=? z)%Z with true by (symmetry; apply Z.leb_le; lia). replace (z <? 2 ^ 31)%Z with true by (symmetry; apply Z.ltb_lt; lia). reflexivity. Qed.
  Lemma flag_reads v x : flag_of v x -> as_bool (T := T) v = Done x. Proof. intros []; reflexivity. Qed.
  Definition ops (es : list (nat * nat * T)) : list (coeff_op T) := map (fun e => SetCoeff (fst (fst e)) (snd (fst e)) (snd e)) es.
  Lemma table_reads tn m es : Forall2 entry_of m es -> forall d, decode_pairs tn m d = Done (Some (coeff_run d (ops es))).
  Proof.
    induction 1 as [|e1 e2 m es H F IH]; intros d; [reflexivity|]. destruct H as [a b v c V]. cbn [decode_pairs as_name rdo]. rewrite (num_reads _ _ V). cbn [rdo]. apply IH.
  Qed.
  Lemma run_default es : forall d, cd_default (coeff_run d (ops es)) = cd_default d.
  Proof. induction es as [|[[a b] c] es IH]; intros d; [reflexivity|]. exact (IH (coeff_step d (SetCoeff a b c))). Qed.
  Lemma pfind_perase k k' (l : list ((nat * nat) * T)) : k <> k' -> pfind k (perase k' l) = pfind k l.
  Proof.
    intros N. induction l as [|[q c] l IH]; [reflexivity|]. unfold perase in *. cbn [filter pfind fst]. destruct (paireqb k' q) eqn:E; cbn [negb].
    - apply paireqb_eq in E as <-. destruct (paireqb k k') eqn:E'; [apply paireqb_eq in E'; contradiction|exact IH].
    - cbn [pfind]. rewrite IH. reflexivity.
  Qed.
  Lemma ordered_same a b x y : (ordered_pair a b = ordered_pair x y) <-> ((a =? x) && (b =? y) || (a =? y) && (b =? x))%nat = true.
  Proof.
    rewrite orb_true_iff, !andb_true_iff, !Nat.eqb_eq. unfold ordered_pair.
    destruct (Nat.leb_spec a b), (Nat.leb_spec x y); split; intros E; try (injection E as -> ->); try lia; destruct E as [[-> ->]|[-> ->]]; try reflexivity; try (f_equal; lia).
  Qed.
  Lemma run_get es : forall d a b, getCollisionCoeff (coeff_run d (ops es)) a b = match last_entry a b es with Some c => c | None => getCollisionCoeff d a b end.
  Proof.
    induction es as [|[[x y] c] es IH]; intros d a b; [reflexivity|]. change (coeff_run d (ops ((x, y, c) :: es))) with (coeff_run (coeff_step d (SetCoeff x y c)) (ops es)).
    rewrite IH. cbn [last_entry]. destruct (last_entry a b es); [reflexivity|]. unfold getCollisionCoeff. cbn [coeff_step cd_table cd_default pfind].
    destruct (((a =? x) && (b =? y) || (a =? y) && (b =? x))%nat) eqn:E.
    - apply ordered_same in E. rewrite E, paireqb_refl. reflexivity.
    - destruct (paireqb (ordered_pair a b) (ordered_pair x y)) eqn:E2; [apply paireqb_eq, ordered_same in E2; congruence|].
      rewrite pfind_perase; [reflexivity|]. intros X. rewrite X, paireqb_refl in E2. discriminate.
  Qed.
End Facts.

Section Eq.
  Local Open Scope R_scope.
  Lemma close_tol x y : close (T := R) feps x y = true <-> tol x y.
  Proof.
    unfold close, tol, feps. cbv zeta. change (nofZ (2 ^ 23)) with (IZR (2 ^ 23)). change (nofZ (2 ^ 52)) with (IZR (2 ^ 52)).
    rnum. rewrite nmax_R.
    replace (1 / IZR (2 ^ 23)) with (/ 2 ^ 23) by (change (IZR (2 ^ 23)) with (IZR 8388608); lra).
    replace (1 / IZR (2 ^ 52)) with (/ 2 ^ 52) by (change (IZR (2 ^ 52)) with (IZR 4503599627370496); lra).
    destruct (Rleb_spec (Rabs (x - y)) (/ 2 ^ 23)) as [H|H]; [tauto|]. destruct (Rleb_spec (Rabs (x - y)) (Rmax (Rabs x) (Rabs y) * / 2 ^ 52)) as [H'|H'].
    - tauto.
    - split; [discriminate|]. intros [?|?]; lra.
  Qed.
  Lemma tol_refl x : tol x x.
  Proof. left. unfold Rminus. rewrite Rplus_opp_r, Rabs_R0. assert (0 < 2 ^ 23) by (apply pow_lt; lra). left. apply Rinv_0_lt_compat. assumption. Qed.
  Lemma tol_sym x y : tol x y -> tol y x.
  Proof. unfold tol. rewrite (Rabs_minus_sym y x), (Rmax_comm (Rabs y)). tauto. Qed.

  Lemma same_set_in z1 z2 : NoDup z1 -> NoDup z2 -> (same_set z1 z2 = true <-> forall k, In k z1 <-> In k z2).
  Proof.
    intros N1 N2. unfold same_set. rewrite andb_true_iff, Nat.eqb_eq, forallb_forall. split.
    - intros [L F] k. assert (I : incl z1 z2) by (intros q Q; apply existsb_pair, F, Q). split; [apply I|].
      apply (NoDup_length_incl N1); [lia|assumption].
    - intros H. split.
      + apply Nat.le_antisymm; apply NoDup_incl_length; try assumption; intros k; apply H.
      + intros k K. apply existsb_pair, H, K.
  Qed.
  Lemma same_map_in (m1 m2 : list ((nat * nat) * R)) : NoDup (map fst m1) -> NoDup (map fst m2) ->
    (same_map (close feps) m1 m2 = true <-> (forall k, In k (map fst m1) <-> In k (map fst m2)) /\ (forall k c1 c2, In (k, c1) m1 -> In (k, c2) m2 -> tol c1 c2)).
  Proof.
    intros N1 N2. unfold same_map. rewrite andb_true_iff, Nat.eqb_eq, forallb_forall. split.
    - intros [L F]. split.
      + assert (I : incl (map fst m1) (map fst m2)).
        { intros k K. apply in_map_iff in K as ([k' c] & E & K). cbn in E. subst k'. specialize (F _ K). cbn in F. destruct (pfind k m2) as [c'|] eqn:P; [|discriminate].
          apply pfind_in in P; [|assumption]. apply (in_map fst) in P. exact P. }
        intros k. split; [apply I|]. apply (NoDup_length_incl N1); [rewrite !map_length; lia|assumption].
      + intros k c1 c2 H1 H2. specialize (F _ H1). cbn in F. apply pfind_in in H2; [|assumption]. rewrite H2 in F. apply tol_sym, close_tol, F.
    - intros [K V]. split.
      + rewrite <- (map_length fst m1), <- (map_length fst m2). apply Nat.le_antisymm; apply NoDup_incl_length; try assumption; intros k; apply K.
      + intros [k c] H. cbn [fst snd]. destruct (pfind k m2) as [c'|] eqn:P.
        * apply pfind_in in P; [|assumption]. apply close_tol, tol_sym, (V k); assumption.
        * apply pfind_none in P. destruct P. apply K. apply (in_map fst) in H. exact H.
  Qed.
End Eq.
