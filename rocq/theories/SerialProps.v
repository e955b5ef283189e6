(** * C120, C121: saving, loading and comparing the collision configuration *)
From Coq Require Import ZArith String List Bool Arith Lia Permutation Reals Lra SpecFloat.
From Verif Require Import Num NumFacts CollisionModel SerialModel SerialSpec SerialProofs.
From Verif Require TrajoptModel.
Import ListNotations.
Import TrajoptModel (run, Done, Thrown, Assert, rdo, rmap).

(** ** C120: what is written is read back *)
(** YAML: whatever the setters did and in whatever order the table is gone through, the object read is like the one written. *)
Theorem C120_yaml : forall (T : Type) (NT : Num T) tn (d : coeffs T) entries, made d -> Permutation entries (cd_table d) ->
  exists d', as_coeffs tn (encode_coeffs (cd_default d) entries) = Done d' /\ alike d d' /\ made d'.
Proof.
  intros T NT tn d entries M P. pose proof (made_wf _ M) as W.
  set (l := map (fun e => SetCoeff (fst (fst e)) (snd (fst e)) (snd e)) entries).
  exists (coeff_run (coeff_new (cd_default d)) l).
  assert (N : NoDup (map fst entries)). { eapply Permutation_NoDup; [|apply (wf_keys _ W)]. apply Permutation_map, Permutation_sym, P. }
  destruct (set_fresh_table entries (coeff_new (cd_default d)) N) as [D E].
  { intros k c H. apply (wf_ordered _ W k c). eapply Permutation_in; eauto. }
  { intros k _ []. }
  fold l in D, E. split; [|split].
  - unfold as_coeffs, decode_coeffs, encode_coeffs. destruct entries as [|e es]; [reflexivity|]. cbn [is_map negb set_if get find_key String.eqb Ascii.eqb Bool.eqb as_double rdo].
    rewrite decode_encoded_pairs. reflexivity.
  - apply alike_tables; [assumption|apply wf_run, wf_new|rewrite D; reflexivity|]. rewrite E. cbn [coeff_new cd_table]. rewrite app_nil_r.
    rewrite <- P. apply Permutation_rev.
  - exists (cd_default d), l. reflexivity.
Qed.
Print Assumptions C120_yaml.

(** cereal: also into an object that was used before. *)
Theorem C120_cereal : forall (T : Type) (NT : Num T) (d old : coeffs T) entries zero, made d -> Permutation entries (cd_table d) -> Permutation zero (cd_zero d) ->
  alike d (load_coeffs (save_coeffs (cd_default d) entries zero) old).
Proof.
  intros T NT d old entries zero M P PZ. pose proof (made_wf _ M) as W. apply alike_tables; [assumption| |reflexivity|apply Permutation_sym, P]. destruct W as [W1 W2 W3 W4].
  constructor; cbn [load_coeffs save_coeffs cd_table cd_zero ar_table ar_zero ar_default].
  - eapply Permutation_NoDup; [|exact W1]. apply Permutation_map, Permutation_sym, P.
  - intros k c H. apply (W2 k c). eapply Permutation_in; eauto.
  - eapply Permutation_NoDup; [apply Permutation_sym, PZ|exact W3].
  - intros k. split.
    + intros H. assert (H' : In k (cd_zero d)) by (eapply Permutation_in; eauto). apply W4 in H' as (c & X & A). exists c. split; [|assumption].
      eapply Permutation_in; [apply Permutation_sym, P|exact X].
    + intros (c & X & A). eapply Permutation_in; [apply Permutation_sym, PZ|]. apply W4. exists c. split; [|assumption]. eapply Permutation_in; eauto.
Qed.
Print Assumptions C120_cereal.

(** A hand-written document: the default is the one given or 1, a pair has the value of its last entry in either order of the names. *)
Theorem C120_document : forall (T : Type) (NT : Num T) tn m c es, NoDup (keys m) ->
  says m "default_coeff" num_of none_ c -> says m "pair_coeff_data" table_of [] es ->
  exists d, as_coeffs tn (YMap m) = Done d /\ made d /\ cd_default d = c /\
    (forall a b, getCollisionCoeff d a b = match last_entry a b es with Some x => x | None => c end) /\
    (forall a b, isZeroPair d a b = match last_entry a b es with Some x => almost_equal x nzero | None => false end).
Proof.
  intros T NT tn m c es N D E. exists (coeff_run (coeff_new c) (ops es)). split; [|split; [exists c, (ops es); reflexivity|split; [apply run_default|]]].
  - unfold as_coeffs, decode_coeffs. cbn [is_map negb]. change (cd_default coeffs_default) with (none_ (T := T)). rewrite (says_set _ _ _ _ _ _ N num_reads D). cbn [rdo].
    unfold get. destruct E as [[E ->]|(v & E & X)].
    + rewrite find_key_out by assumption. reflexivity.
    + rewrite (find_key_in _ _ _ N E). destruct X as [m' es F]. rewrite (table_reads tn _ _ F). reflexivity.
  - assert (G : forall a b, getCollisionCoeff (coeff_run (coeff_new c) (ops es)) a b = match last_entry a b es with Some x => x | None => c end).
    { intros a b. rewrite run_get. destruct (last_entry a b es); reflexivity. }
    split; [exact G|]. intros a b. pose proof (wf_run (ops es) _ (wf_new c)) as W. set (d := coeff_run (coeff_new c) (ops es)) in *.
    assert (Own : pfind (ordered_pair a b) (cd_table d) = last_entry a b es).
    { unfold d. clear. cut (forall d0, pfind (ordered_pair a b) (cd_table (coeff_run d0 (ops es))) = match last_entry a b es with Some x => Some x | None => pfind (ordered_pair a b) (cd_table d0) end).
      { intros H. rewrite H. destruct (last_entry a b es); reflexivity. }
      induction es as [|[[x y] z] es IH]; intros d0; [reflexivity|].
      change (coeff_run d0 (ops ((x, y, z) :: es))) with (coeff_run (coeff_step d0 (SetCoeff x y z)) (ops es)). rewrite IH. cbn [last_entry].
      destruct (last_entry a b es); [reflexivity|]. cbn [coeff_step cd_table pfind].
      destruct (((a =? x) && (b =? y) || (a =? y) && (b =? x))%nat) eqn:E.
      - apply ordered_same in E. rewrite E, paireqb_refl. reflexivity.
      - destruct (paireqb (ordered_pair a b) (ordered_pair x y)) eqn:E2; [apply paireqb_eq, ordered_same in E2; congruence|].
        apply pfind_perase. intros X. rewrite X, paireqb_refl in E2. discriminate. }
    unfold isZeroPair. apply eq_true_iff_eq. rewrite existsb_pair, (wf_zero _ W). rewrite <- Own. destruct (pfind (ordered_pair a b) (cd_table d)) as [x|] eqn:P.
    + apply pfind_in in P as P'; [|apply W]. split; [intros (x' & X & A); apply pfind_in in X; [|apply W]; congruence|intros A; eauto].
    + apply pfind_none in P. split; [|discriminate]. intros (x & X & _). destruct P. apply (in_map fst) in X. exact X.
Qed.
Print Assumptions C120_document.

(** What is not a map, an entry whose key is not a list of two names, a coefficient that is no number, a list instead of a map: refused. *)
Theorem C120_refused : forall (T : Type) (NT : Num T) tn (m : list (yaml T * yaml T)) v, NoDup (keys m) ->
  (is_map v = false -> as_coeffs tn v = Thrown) /\
  (In (YKey "default_coeff", v) m -> (forall x, ~ num_of v x) -> as_coeffs tn (YMap m) = Thrown) /\
  (forall x l, In (YKey "pair_coeff_data", YSeq (x :: l)) m -> forall d, as_coeffs tn (YMap m) <> Done d) /\
  (forall t k c, In (YKey "pair_coeff_data", YMap t) m -> In (k, c) t -> (forall a b, k <> YSeq [a; b]) -> forall d, as_coeffs tn (YMap m) <> Done d).
Proof.
  intros T NT tn m v N. split; [|split; [|split]].
  - unfold as_coeffs, decode_coeffs. intros ->. reflexivity.
  - intros H X. unfold as_coeffs, decode_coeffs. cbn [is_map negb]. unfold set_if, get. rewrite (find_key_in _ _ _ N H).
    replace (as_double v) with (@Thrown T); [reflexivity|]. destruct v; try reflexivity; exfalso; [apply (X (nofZ z))|apply (X x)]; constructor.
  - intros x l H d. unfold as_coeffs, decode_coeffs. cbn [is_map negb]. destruct (set_if _ _ _ _); cbn [rdo]; try discriminate.
    unfold get. rewrite (find_key_in _ _ _ N H). discriminate.
  - intros t k c H I K d. unfold as_coeffs, decode_coeffs. cbn [is_map negb]. destruct (set_if _ _ _ _) as [c0| |]; cbn [rdo]; try discriminate.
    unfold get. rewrite (find_key_in _ _ _ N H). generalize (coeff_step (coeffs_default (T := T)) (SetDefault c0)) as d0. clear H.
    induction t as [|[k' c'] t IH]; intros d0; [destruct I|]. cbn [decode_pairs]. destruct I as [[= -> ->]|I].
    + destruct k as [| | | | | |l|]; try discriminate. destruct l as [|a [|b [|]]]; try discriminate. destruct (K a b eq_refl).
    + destruct k' as [| | | | | |l|]; try discriminate. destruct l as [|a [|b [|]]]; try discriminate.
      destruct (as_name tn a); cbn [rdo]; try discriminate. destruct (as_name tn b); cbn [rdo]; try discriminate. destruct (as_double c'); cbn [rdo]; try discriminate. apply IH, I.
Qed.
Print Assumptions C120_refused.

(** ** The whole configuration *)
Section Config.
  Context {T : Type} {NT : Num T} {CM CC : Type}.
  (** the same in every field, the coefficients up to the order of the tables *)
  Definition config_alike (c1 c2 : config T CM CC) : Prop :=
    cf_enabled _ _ c1 = cf_enabled _ _ c2 /\ cf_manager _ _ c1 = cf_manager _ _ c2 /\ cf_check _ _ c1 = cf_check _ _ c2 /\
    alike (cf_coeffs _ _ c1) (cf_coeffs _ _ c2) /\ cf_buffer _ _ c1 = cf_buffer _ _ c2 /\ cf_max _ _ c1 = cf_max _ _ c2.
End Config.

(** With sub-configurations that are read back as written, so is the whole. *)
Theorem C120_config : forall (T : Type) (NT : Num T) tn (CM CC : Type) cme cce cmd ccd cms (c : config T CM CC) entries cm cc,
  (forall x, cmd (cme x) = Done x) -> (forall x, ccd (cce x) = Done x) ->
  made (cf_coeffs _ _ c) -> Permutation entries (cd_table (cf_coeffs _ _ c)) -> (- 2 ^ 31 <= cf_max _ _ c < 2 ^ 31)%Z ->
  exists c', as_config tn CM CC cmd ccd cms cm cc (encode_config CM CC cme cce c entries) = Done c' /\ config_alike c c'.
Proof.
  intros T NT tn CM CC cme cce cmd ccd cms c entries cm cc E1 E2 M P Z.
  destruct (C120_yaml T NT tn _ entries M P) as (d & D & A & _).
  exists {| cf_enabled := cf_enabled _ _ c; cf_manager := cf_manager _ _ c; cf_check := cf_check _ _ c; cf_coeffs := d; cf_buffer := cf_buffer _ _ c; cf_max := cf_max _ _ c |}.
  split; [|unfold config_alike; cbn; tauto].
  unfold as_config, decode_config, encode_config. cbn [is_map negb]. unfold set_if. cbn [get find_key String.eqb Ascii.eqb Bool.eqb].
  cbn [as_bool rdo]. rewrite E1. cbn [rdo]. rewrite E2. cbn [rdo]. rewrite D. cbn [rdo as_double]. rewrite (int_reads (YInt (cf_max _ _ c)) _ (int_int _ Z)). reflexivity.
Qed.
Print Assumptions C120_config.

Theorem C120_config_cereal : forall (T : Type) (NT : Num T) (CM CC : Type) (c old : config T CM CC) entries zero,
  made (cf_coeffs _ _ c) -> Permutation entries (cd_table (cf_coeffs _ _ c)) -> Permutation zero (cd_zero (cf_coeffs _ _ c)) ->
  config_alike c (load_config CM CC (save_config CM CC c entries zero) old).
Proof. intros T NT CM CC c old entries zero M P Z. unfold config_alike. do 3 (split; [reflexivity|]). split; [apply (C120_cereal T NT); assumption|split; reflexivity]. Qed.
Print Assumptions C120_config_cereal.

(** A hand-written document: members not given keep the value of the object read into, the coefficients are replaced as a whole, and
    scale_margins is applied to the contact manager configuration read, wherever it stands. *)
Theorem C120_members : forall (T : Type) (NT : Num T) tn (CM CC : Type) cmd ccd cms m (c : config T CM CC) en cm cc cd b n sc, NoDup (keys m) ->
  says m "enabled" flag_of (cf_enabled _ _ c) en ->
  says m "contact_manager_config" (fun v x => cmd v = Done x) (cf_manager _ _ c) cm ->
  says m "collision_check_config" (fun v x => ccd v = Done x) (cf_check _ _ c) cc ->
  says m "collision_coeff_data" (fun v d => as_coeffs tn v = Done d) (cf_coeffs _ _ c) cd ->
  says m "collision_margin_buffer" num_of (cf_buffer _ _ c) b ->
  says m "max_num_cnt" int_of (cf_max _ _ c) n ->
  says m "scale_margins" (fun v x => exists s, num_of v s /\ x = Some s) None sc ->
  decode_config tn CM CC cmd ccd cms (YMap m) c =
    Done (Some {| cf_enabled := en; cf_manager := match sc with Some s => cms s cm | None => cm end; cf_check := cc; cf_coeffs := cd; cf_buffer := b; cf_max := n |}).
Proof.
  intros T NT tn CM CC cmd ccd cms m c en cm cc cd b n sc N S1 S2 S3 S4 S5 S6 S7. unfold decode_config. cbn [is_map negb].
  rewrite (says_set _ _ _ _ _ _ N flag_reads S1). cbn [rdo]. rewrite (says_set _ _ cmd _ _ _ N (fun v x H => H) S2). cbn [rdo].
  rewrite (says_set _ _ ccd _ _ _ N (fun v x H => H) S3). cbn [rdo]. rewrite (says_set _ _ (as_coeffs tn) _ _ _ N (fun v x H => H) S4). cbn [rdo].
  rewrite (says_set _ _ _ _ _ _ N num_reads S5). cbn [rdo]. rewrite (says_set _ _ _ _ _ _ N int_reads S6). cbn [rdo].
  assert (S8 : set_if "scale_margins" (fun w => rdo (as_double w) (fun s => Done (cms s cm))) (YMap m) cm = Done (match sc with Some s => cms s cm | None => cm end)).
  { destruct S7 as [[H ->]|(v & H & s & V & ->)]; unfold set_if, get.
    - rewrite find_key_out by assumption. reflexivity.
    - rewrite (find_key_in _ _ _ N H), (num_reads _ _ V). reflexivity. }
  rewrite S8. reflexivity.
Qed.
Print Assumptions C120_members.

(** The constructor: every pair of links has the coefficient given, no pair is dropped, and the other members have the documented defaults. *)
Theorem C120_new : forall (CM CC : Type) cm cc (x : R) a b, let c := config_new CM CC cm cc x in
  cf_enabled _ _ c = true /\ cf_manager _ _ c = cm /\ cf_check _ _ c = cc /\ getCollisionCoeff (cf_coeffs _ _ c) a b = x /\ isZeroPair (cf_coeffs _ _ c) a b = false /\
  cf_buffer _ _ c = (1 / 100)%R /\ cf_max _ _ c = 3%Z.
Proof.
  intros. do 5 (split; [reflexivity|]). split; [|reflexivity]. cbn. change (ndec (T := R) 1 (-2)) with (Rdec 1 (-2)). unfold Rdec. change (Pos.to_nat 2) with 2%nat. cbn [pow]. lra.
Qed.
Print Assumptions C120_new.

(** The alias "buffer" announced in the comment of decode is not read. *)
Theorem C120_alias_refuted : forall tn (CM CC : Type) cmd ccd cms cm cc (x : R), x <> (1 / 100)%R ->
  exists m c, In (YKey "buffer", YNum x) m /\ as_config tn CM CC cmd ccd cms cm cc (YMap m) = Done c /\ cf_buffer _ _ c <> x.
Proof.
  intros. exists [(YKey "buffer", YNum x)]. eexists. split; [cbn; auto|]. split; [reflexivity|]. cbn. change (ndec (T := R) 1 (-2)) with (Rdec 1 (-2)).
  unfold Rdec. change (Pos.to_nat 2) with 2%nat. cbn [pow]. lra.
Qed.
Print Assumptions C120_alias_refuted.

(** decode called on an object that has pairs keeps those the document does not mention. *)
Theorem C120_inplace_refuted : forall tn, exists (d d1 d2 : coeffs R) v, made d /\
  decode_coeffs tn v d = Done (Some d1) /\ as_coeffs tn v = Done d2 /\ getCollisionCoeff d1 1 2 <> getCollisionCoeff d2 1 2.
Proof.
  intros tn. exists (coeff_run (coeff_new 1%R) [SetCoeff 1 2 5%R]). eexists. eexists. exists (YMap []). split; [exists 1%R; eexists; reflexivity|].
  split; [reflexivity|]. split; [reflexivity|]. cbn. lra.
Qed.
Print Assumptions C120_inplace_refuted.

(** ** C121: comparing *)
Local Open Scope R_scope.
(** Two objects are equal exactly when the defaults are within tolerance, the same pairs have coefficients of their own, these are
    within tolerance, and the same pairs are zero. *)
Theorem C121_coeffs : forall d1 d2 : coeffs R, made d1 -> made d2 ->
  (eq_coeffs d1 d2 = true <->
   tol (cd_default d1) (cd_default d2) /\ (forall a b, has_own d1 a b <-> has_own d2 a b) /\
   (forall a b, has_own d1 a b -> tol (getCollisionCoeff d1 a b) (getCollisionCoeff d2 a b)) /\ (forall a b, isZeroPair d1 a b = isZeroPair d2 a b)).
Proof.
  intros d1 d2 M1 M2. apply made_wf in M1 as W1. apply made_wf in M2 as W2. unfold eq_coeffs. rewrite !andb_true_iff, close_tol.
  rewrite (same_map_in _ _ (wf_keys _ W1) (wf_keys _ W2)), (same_set_in _ _ (wf_zero_nodup _ W1) (wf_zero_nodup _ W2)).
  assert (Hown : forall d : coeffs R, wf d -> forall a b, has_own d a b <-> In (ordered_pair a b) (map fst (cd_table d))).
  { intros d W a b. unfold has_own. rewrite in_map_iff. split; [intros (c & H); exists (ordered_pair a b, c); auto|intros ([k c] & E & H); cbn in E; subst; eauto]. }
  assert (Kord : forall d : coeffs R, wf d -> forall k, In k (map fst (cd_table d)) -> exists a b, k = ordered_pair a b).
  { intros d W [a b] H. apply in_map_iff in H as ([k c] & E & H). cbn in E. subst. apply (wf_ordered _ W) in H. exists a, b. symmetry. apply ordered_id, H. }
  assert (G : forall d : coeffs R, wf d -> forall a b c, In (ordered_pair a b, c) (cd_table d) -> getCollisionCoeff d a b = c).
  { intros d W a b c H. unfold getCollisionCoeff. apply pfind_in in H; [|apply W]. rewrite H. reflexivity. }
  split.
  - intros [[D [K V]] Z]. split; [assumption|]. split; [|split].
    + intros a b. rewrite (Hown _ W1), (Hown _ W2). apply K.
    + intros a b H. apply (Hown _ W1) in H as H1. apply K in H1. apply (Hown _ W2) in H1. destruct H as [c1 H], H1 as [c2 H1].
      rewrite (G _ W1 _ _ _ H), (G _ W2 _ _ _ H1). eapply V; eauto.
    + intros a b. unfold isZeroPair. apply eq_true_iff_eq. rewrite !existsb_pair. apply Z.
  - intros (D & K & V & Z). split; [split; [assumption|split]|].
    + intros k. split; intros H.
      * destruct (Kord _ W1 _ H) as (a & b & ->). apply (Hown _ W2), K, (Hown _ W1), H.
      * destruct (Kord _ W2 _ H) as (a & b & ->). apply (Hown _ W1), K, (Hown _ W2), H.
    + intros k c1 c2 H1 H2. destruct (Kord _ W1 k) as (a & b & ->); [apply (in_map fst) in H1; exact H1|].
      rewrite <- (G _ W1 _ _ _ H1), <- (G _ W2 _ _ _ H2). apply V. eexists. exact H1.
    + intros k. assert (X : forall d : coeffs R, wf d -> In k (cd_zero d) -> exists a b, k = ordered_pair a b).
      { intros d W H. apply (wf_zero _ W) in H as (c & H & _). apply (Kord _ W). apply (in_map fst) in H. exact H. }
      split; intros H; [destruct (X _ W1 H) as (a & b & ->)|destruct (X _ W2 H) as (a & b & ->)]; apply existsb_pair; apply existsb_pair in H;
        [change (isZeroPair d2 a b = true); rewrite <- Z; exact H|change (isZeroPair d1 a b = true); rewrite Z; exact H].
Qed.
Print Assumptions C121_coeffs.

(** In particular, equal objects give coefficients within tolerance for every pair of links, and drop the same pairs. *)
Theorem C121_meaning : forall d1 d2 : coeffs R, made d1 -> made d2 -> eq_coeffs d1 d2 = true ->
  forall a b, tol (getCollisionCoeff d1 a b) (getCollisionCoeff d2 a b) /\ isZeroPair d1 a b = isZeroPair d2 a b.
Proof.
  intros d1 d2 M1 M2 E a b. apply (C121_coeffs _ _ M1 M2) in E as (D & K & V & Z). split; [|apply Z].
  destruct (pfind (ordered_pair a b) (cd_table d1)) as [c|] eqn:P.
  - apply V. exists c. apply pfind_in in P; [assumption|apply made_wf, M1].
  - assert (P2 : pfind (ordered_pair a b) (cd_table d2) = None).
    { destruct (pfind (ordered_pair a b) (cd_table d2)) as [c|] eqn:P2; [|reflexivity]. apply pfind_in in P2; [|apply made_wf, M2].
      assert (H : has_own d1 a b) by (apply K; exists c; assumption). destruct H as [c' H]. apply pfind_in in H; [congruence|apply made_wf, M1]. }
    unfold getCollisionCoeff. rewrite P, P2. assumption.
Qed.
Print Assumptions C121_meaning.

(** Reflexive and symmetric; alike objects are equal, so that saving and loading gives an equal one. *)
Theorem C121_reflexive : forall d1 d2 : coeffs R, made d1 -> made d2 -> (alike d1 d2 -> eq_coeffs d1 d2 = true) /\ eq_coeffs d1 d1 = true /\ eq_coeffs d1 d2 = eq_coeffs d2 d1.
Proof.
  intros d1 d2 M1 M2.
  assert (A : forall d1 d2 : coeffs R, made d1 -> made d2 -> alike d1 d2 -> eq_coeffs d1 d2 = true).
  { clear. intros d1 d2 M1 M2 (D & G & P & Z & PZ). apply C121_coeffs; try assumption. split; [rewrite D; apply tol_refl|]. split; [|split; [|exact Z]].
    - intros a b. split; intros [c H]; exists c; [eapply Permutation_in; eauto|]. eapply Permutation_in; [apply Permutation_sym, P|exact H].
    - intros a b _. rewrite G. apply tol_refl. }
  split; [auto|]. split.
  - apply A; try assumption. split; [reflexivity|]. split; [reflexivity|]. split; [apply Permutation_refl|]. split; [reflexivity|apply Permutation_refl].
  - assert (S1 : forall d1 d2 : coeffs R, made d1 -> made d2 -> eq_coeffs d1 d2 = true -> eq_coeffs d2 d1 = true).
    { clear. intros d1 d2 M1 M2 E. apply C121_coeffs in E as (D & K & V & Z); try assumption. apply C121_coeffs; try assumption.
      split; [apply tol_sym, D|]. split; [intros; symmetry; apply K|]. split; [intros a b H; apply tol_sym, V, K, H|intros; symmetry; apply Z]. }
    apply eq_true_iff_eq. split; apply S1; assumption.
Qed.
Print Assumptions C121_reflexive.

(** The whole configuration: the switch and the number of contacts exactly, the buffer within tolerance, the rest by its own comparison. *)
Theorem C121_config : forall (CM CC : Type) cme cce (c1 c2 : config R CM CC), made (cf_coeffs _ _ c1) -> made (cf_coeffs _ _ c2) ->
  (eq_config CM CC cme cce c1 c2 = true <->
   cf_enabled _ _ c1 = cf_enabled _ _ c2 /\ cme (cf_manager _ _ c1) (cf_manager _ _ c2) = true /\ cce (cf_check _ _ c1) (cf_check _ _ c2) = true /\
   eq_coeffs (cf_coeffs _ _ c1) (cf_coeffs _ _ c2) = true /\ tol (cf_buffer _ _ c1) (cf_buffer _ _ c2) /\ cf_max _ _ c1 = cf_max _ _ c2).
Proof. intros. unfold eq_config. rewrite !andb_true_iff, eqb_true_iff, close_tol, Z.eqb_eq. tauto. Qed.
Print Assumptions C121_config.

(** So a configuration written to YAML and read again equals the one written. *)
Theorem C121_round_trip : forall tn (CM CC : Type) cme cce cmd ccd cms cmq ccq (c : config R CM CC) entries cm cc,
  (forall x, cmd (cme x) = Done x) -> (forall x, ccd (cce x) = Done x) -> (forall x, cmq x x = true) -> (forall x, ccq x x = true) ->
  made (cf_coeffs _ _ c) -> Permutation entries (cd_table (cf_coeffs _ _ c)) -> (- 2 ^ 31 <= cf_max _ _ c < 2 ^ 31)%Z ->
  exists c', as_config tn CM CC cmd ccd cms cm cc (encode_config CM CC cme cce c entries) = Done c' /\ eq_config CM CC cmq ccq c c' = true /\ eq_config CM CC cmq ccq c' c = true.
Proof.
  intros tn CM CC cme cce cmd ccd cms cmq ccq c entries cm cc E1 E2 Q1 Q2 M P Z.
  destruct (C120_yaml R _ tn _ entries M P) as (d & D & A & M').
  exists {| cf_enabled := cf_enabled _ _ c; cf_manager := cf_manager _ _ c; cf_check := cf_check _ _ c; cf_coeffs := d; cf_buffer := cf_buffer _ _ c; cf_max := cf_max _ _ c |}.
  split.
  - unfold as_config, decode_config, encode_config. cbn [is_map negb]. unfold set_if. cbn [get find_key String.eqb Ascii.eqb Bool.eqb].
    cbn [as_bool rdo]. rewrite E1. cbn [rdo]. rewrite E2. cbn [rdo]. rewrite D. cbn [rdo as_double]. rewrite (int_reads (YInt (cf_max _ _ c)) _ (int_int _ Z)). reflexivity.
  - destruct (C121_reflexive _ _ M M') as (R1 & _ & R3). specialize (R1 A).
    split; apply C121_config; cbn [cf_enabled cf_manager cf_check cf_coeffs cf_buffer cf_max]; try assumption;
      (split; [reflexivity|]); (split; [apply Q1|]); (split; [apply Q2|]); (split; [congruence|]); split; try apply tol_refl; reflexivity.
Qed.
Print Assumptions C121_round_trip.

(** Not transitive: the tolerance adds up. *)
Theorem C121_transitive_refuted : exists d1 d2 d3 : coeffs R, made d1 /\ made d2 /\ made d3 /\ eq_coeffs d1 d2 = true /\ eq_coeffs d2 d3 = true /\ eq_coeffs d1 d3 = false.
Proof.
  exists (coeff_new 0), (coeff_new (/ 2 ^ 23)), (coeff_new (2 * / 2 ^ 23)).
  assert (M : forall x : R, made (coeff_new x)) by (intros x; exists x, []; reflexivity).
  assert (P : 0 < / 2 ^ 23) by (apply Rinv_0_lt_compat, pow_lt; lra).
  assert (Q : / 2 ^ 52 < 1 / 2) by lra.
  split; [apply M|]. split; [apply M|]. split; [apply M|].
  assert (E : forall x y, eq_coeffs (coeff_new x) (coeff_new y) = close (T := R) feps x y).
  { intros. unfold eq_coeffs, coeff_new. cbn [cd_default cd_table cd_zero same_map same_set length Nat.eqb forallb andb]. rewrite !andb_true_r. reflexivity. }
  rewrite !E. split; [|split].
  - apply close_tol. left. rewrite Rabs_left; lra.
  - apply close_tol. left. rewrite Rabs_left; lra.
  - destruct (close _ _ _) eqn:C; [|reflexivity]. apply close_tol in C. unfold tol in C. rewrite Rabs_R0 in C. rewrite (Rabs_left (0 - _)), (Rabs_right (2 * _)), Rmax_right in C by lra.
    destruct C as [C|C]; [lra|]. assert (2 * / 2 ^ 23 * / 2 ^ 52 < 2 * / 2 ^ 23 * (1 / 2)) by (apply Rmult_lt_compat_l; lra). lra.
Qed.
Print Assumptions C121_transitive_refuted.

(** Unequal although every pair of links has the same coefficient and the same pairs are zero: a pair set to the default. *)
Theorem C121_redundant_refuted : exists d1 d2 : coeffs R, made d1 /\ made d2 /\ cd_default d1 = cd_default d2 /\
  (forall a b, getCollisionCoeff d1 a b = getCollisionCoeff d2 a b) /\ (forall a b, isZeroPair d1 a b = isZeroPair d2 a b) /\ eq_coeffs d1 d2 = false.
Proof.
  set (d2 := coeff_run (coeff_new 1) [SetCoeff 1 2 1]). exists (coeff_new 1), d2.
  assert (Z : almost_equal (T := R) 1 0 = false).
  { unfold almost_equal. cbv zeta. change (nofZ (2 ^ 52)) with (IZR 4503599627370496). change (ndec (T := R) 1 (-6)) with (Rdec 1 (-6)). unfold Rdec. change (Pos.to_nat 6) with 6%nat.
    rnum. rewrite nmax_R, Rminus_0_r, Rabs_R1, Rabs_R0, Rmax_left by lra. cbn [pow].
    do 2 (match goal with |- context [Rleb ?x ?y] => destruct (Rleb_spec x y); [exfalso; lra|] end). reflexivity. }
  split; [exists 1, []; reflexivity|]. split; [exists 1; eexists; reflexivity|]. split; [reflexivity|]. split; [|split].
  - intros a b. unfold getCollisionCoeff, d2. cbn. destruct (paireqb (ordered_pair a b) (1, 2)%nat); reflexivity.
  - intros a b. unfold isZeroPair, d2. cbn [coeff_run fold_left coeff_step cd_zero coeff_new]. change (nzero (T := R)) with 0. rewrite Z. reflexivity.
  - unfold eq_coeffs, d2. cbn. apply andb_false_r || (rewrite andb_false_r; reflexivity).
Qed.
Print Assumptions C121_redundant_refuted.

(** Over doubles an object with an infinite coefficient differs from itself, and so from its own copy: inf - inf is not a number. *)
Theorem C121_infinite_refuted : exists d : coeffs f64, made (NT := f64_Num) d /\ @eq_coeffs f64 f64_Num d d = false.
Proof. exists (@coeff_new f64 (S754_infinity false)). split; [exists (S754_infinity false), []; reflexivity|vm_compute; reflexivity]. Qed.
Print Assumptions C121_infinite_refuted.

(** An object whose setters were called for three pairs, one of them twice; written with its table in reverse, and a document. *)
Definition ex_ops : list (coeff_op R) := [SetCoeff 2 1 5; SetCoeff 3 4 0; SetDefault 2; SetCoeff 1 2 7; SetCoeff 5 5 1].
Example C120_yaml_ex : let d := coeff_run (coeff_new 3) ex_ops in made d /\ Permutation (rev (cd_table d)) (cd_table d) /\ length (cd_table d) = 3%nat /\
  getCollisionCoeff d 2 1 = 7 /\ cd_default d = 2.
Proof. cbv zeta. split; [exists 3, ex_ops; reflexivity|]. split; [apply Permutation_sym, Permutation_rev|]. cbn. auto. Qed.
Definition ex_doc : list (yaml R * yaml R) :=
  [(YKey "pair_coeff_data", YMap [(YSeq [YName 1; YName 2], YInt 4); (YSeq [YName 2; YName 1], YNum (1 / 2))]); (YKey "comment", YNull)].
Example C120_document_ex : NoDup (keys ex_doc) /\ says ex_doc "default_coeff" num_of 1 1 /\ says ex_doc "pair_coeff_data" table_of [] [(1%nat, 2%nat, 4); (2%nat, 1%nat, 1 / 2)] /\
  last_entry 1 2 [(1%nat, 2%nat, 4); (2%nat, 1%nat, 1 / 2)] = Some (1 / 2).
Proof.
  split; [repeat constructor; cbn; intuition discriminate|]. split; [left; split; [cbn; intuition discriminate|reflexivity]|]. split; [|reflexivity].
  right. eexists. split; [left; reflexivity|]. constructor. constructor; [constructor; exact (num_int (T := R) 4)|]. constructor; [constructor; constructor|constructor].
Qed.
Example C120_refused_ex : NoDup (keys [(YKey "default_coeff", YKey "high" : yaml R)]) /\ forall x : R, ~ num_of (YKey "high") x.
Proof. split; [repeat constructor; cbn; tauto|]. intros x H. inversion H. Qed.
(** sub-configurations that are a margin and nothing *)
Example C120_config_ex : exists c : config R R unit, made (cf_coeffs _ _ c) /\ cf_max _ _ c = 5%Z /\ (forall x : R, as_double (YNum x) = Done x) /\ cf_buffer _ _ c = 1 / 10.
Proof.
  exists {| cf_enabled := false; cf_manager := 1 / 100; cf_check := tt; cf_coeffs := coeff_run (coeff_new 3) ex_ops; cf_buffer := 1 / 10; cf_max := 5 |}.
  split; [exists 3, ex_ops; reflexivity|]. auto.
Qed.
Definition ex_conf : list (yaml R * yaml R) := [(YKey "scale_margins", YNum (1 / 2)); (YKey "enabled", YBool false); (YKey "contact_manager_config", YNum 4)].
Example C120_members_ex : exists c : config R R unit,
  decode_config (fun _ => 0%nat) R unit (fun v => as_double v) (fun _ => Thrown) Rmult (YMap ex_conf) (config_default R unit 9 tt) = Done (Some c) /\
  cf_enabled _ _ c = false /\ cf_manager _ _ c = 2 /\ cf_max _ _ c = 3%Z.
Proof.
  eexists. split; [|split; [|split]].
  - apply (C120_members R R_Num _ _ _ _ _ Rmult ex_conf) with (en := false) (cm := 4) (cc := tt) (cd := coeffs_default) (b := ndec 1 (-2)) (n := 3%Z) (sc := Some (1 / 2)).
    + repeat constructor; cbn; intuition discriminate.
    + right. eexists. split; [right; left; reflexivity|constructor].
    + right. eexists. split; [right; right; left; reflexivity|reflexivity].
    + left. split; [cbn; intuition discriminate|reflexivity].
    + left. split; [cbn; intuition discriminate|reflexivity].
    + left. split; [cbn; intuition discriminate|reflexivity].
    + left. split; [cbn; intuition discriminate|reflexivity].
    + right. eexists. split; [left; reflexivity|]. eexists. split; [constructor|reflexivity].
  - reflexivity.
  - cbn. lra.
  - reflexivity.
Qed.
Example C121_coeffs_ex : let d := coeff_run (coeff_new 3) ex_ops in let d' := coeff_run (coeff_new 2) [SetCoeff 5 5 1; SetCoeff 1 2 (7 + / 2 ^ 24); SetCoeff 4 3 0] in
  made d /\ made d' /\ d <> d' /\ tol (getCollisionCoeff d 1 2) (getCollisionCoeff d' 1 2).
Proof.
  cbv zeta. split; [exists 3, ex_ops; reflexivity|]. split; [exists 2; eexists; reflexivity|]. split.
  - intros E. apply (f_equal cd_table) in E. discriminate || (cbn in E; injection E; intros; lra).
  - cbn [getCollisionCoeff coeff_run ex_ops fold_left coeff_step coeff_new cd_table cd_default]. left. cbn. rewrite Rabs_left; lra.
Qed.
