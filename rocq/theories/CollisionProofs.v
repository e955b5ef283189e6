From Coq Require Import List ZArith Bool Arith Reals Lra Lia Permutation Sorted.
From Verif Require Import Num NumFacts RSums Common CollisionModel CollisionSpec.
Import ListNotations.
Local Open Scope R_scope.

(** ** slots *)
Lemma side_set {A} (p : A * A) i j a : side (set_side p i a) j = if Bool.eqb i j then a else side p j.
Proof. destruct p, i, j; reflexivity. Qed.

Definition slot_has (s : gset R) (i t : bool) : bool := side (has_error (side (gs_max s) i)) t.
Definition slot_err (s : gset R) (i t : bool) : R := side (lerror (side (gs_max s) i)) t.
Definition slot_errb (s : gset R) (i t : bool) : R := side (lerrb (side (gs_max s) i)) t.

Lemma slot_add s r i t :
  slot_has (gs_add s r) i t = slot_has s i t || counts i t r /\
  slot_err (gs_add s r) i t = (if counts i t r then Rmax (slot_err s i t) (gr_err r) else slot_err s i t) /\
  slot_errb (gs_add s r) i t = (if counts i t r then Rmax (slot_errb s i t) (gr_errb r) else slot_errb s i t).
Proof.
  unfold slot_has, slot_err, slot_errb, gs_add, counts. cbn [gs_max fold_left].
  unfold add_link. destruct s as [sk ssh sc sct [[[h1 h2] [e1 e2] [b1 b2]] [[h3 h4] [e3 e4] [b3 b4]]] srs]; cbn [gs_max].
  destruct r as [re rb [[[] rg1 rs1 []] [[] rg2 rs2 []]] rcc];
    cbn [gr_grads side fst snd has_gradient gcc cceqb negb];
    destruct i, t; cbn [side set_side fst snd upd_slot has_error lerror lerrb andb negb cceqb gr_err gr_errb orb];
    rewrite ?orb_true_r, ?orb_false_r, ?nmax_R; auto.
Qed.

Lemma built_snoc lowest k sh c ct rs r : built lowest k sh c ct (rs ++ [r]) = gs_add (built lowest k sh c ct rs) r.
Proof. unfold built. rewrite fold_left_app. reflexivity. Qed.

Lemma built_results lowest k sh c ct rs : gs_results (built lowest k sh c ct rs) = rs.
Proof.
  induction rs as [|r rs IH] using rev_ind; [reflexivity|]. rewrite built_snoc. cbn [gs_add gs_results]. rewrite IH. reflexivity.
Qed.
Lemma built_shape lowest k sh c ct rs : gs_shape (built lowest k sh c ct rs) = sh.
Proof. induction rs as [|r rs IH] using rev_ind; [reflexivity|]. rewrite built_snoc. exact IH. Qed.
Lemma built_key lowest k sh c ct rs : gs_key (built lowest k sh c ct rs) = k.
Proof. induction rs as [|r rs IH] using rev_ind; [reflexivity|]. rewrite built_snoc. exact IH. Qed.
Lemma built_coeff lowest k sh c ct rs : gs_coeff (built lowest k sh c ct rs) = c.
Proof. induction rs as [|r rs IH] using rev_ind; [reflexivity|]. rewrite built_snoc. exact IH. Qed.

Lemma is_max_uniq l a b : is_max l a -> is_max l b -> a = b.
Proof. intros [A1 A2] [B1 B2]. apply Rle_antisym; auto. Qed.

Lemma is_max_perm l l' m : Permutation l l' -> is_max l m -> is_max l' m.
Proof. intros P [A B]. split; [eapply Permutation_in; eauto|]. intros x Hx. apply B. eapply Permutation_in; [apply Permutation_sym|]; eauto. Qed.

Lemma is_max_snoc l m x : is_max l m -> is_max (l ++ [x]) (Rmax m x).
Proof.
  intros [A B]. split.
  - apply in_or_app. unfold Rmax. destruct (Rle_dec m x); cbn; auto.
  - intros y Hy. apply in_app_or in Hy as [Hy|[<-|[]]]; [apply Rle_trans with m; auto using Rmax_l|apply Rmax_r].
Qed.

Lemma slots_built lowest k sh c ct rs i t :
  (forall r, In r rs -> lowest <= gr_err r /\ lowest <= gr_errb r) ->
  let s := built lowest k sh c ct rs in
  let rel := filter (counts i t) rs in
  slot_has s i t = existsb (counts i t) rs /\
  (rel = [] -> slot_err s i t = lowest /\ slot_errb s i t = lowest) /\
  (rel <> [] -> is_max (map gr_err rel) (slot_err s i t) /\ is_max (map gr_errb rel) (slot_errb s i t)).
Proof.
  induction rs as [|r rs IH] using rev_ind; intros Hl; cbn zeta.
  - unfold built, slot_has, slot_err, slot_errb. destruct i, t; cbn; repeat split; auto; congruence.
  - rewrite built_snoc. destruct (slot_add (built lowest k sh c ct rs) r i t) as (-> & -> & ->).
    destruct IH as (A & B & C); [intros; apply Hl; apply in_or_app; auto|].
    rewrite A, existsb_app, filter_app. cbn [existsb filter]. rewrite orb_false_r.
    split; [reflexivity|]. destruct (counts i t r) eqn:E.
    + split; [intros H; apply app_eq_nil in H as [_ H]; discriminate|]. intros _.
      rewrite !map_app. cbn [map]. destruct (Hl r) as [L1 L2]; [apply in_or_app; cbn; auto|].
      destruct (filter (counts i t) rs) as [|r0 l0] eqn:F.
      * destruct (B eq_refl) as [-> ->]. cbn [map app]. rewrite (Rmax_right _ _ L1), (Rmax_right _ _ L2).
        split; split; cbn; auto; intros x [<-|[]]; lra.
      * destruct C as [C1 C2]; [discriminate|]. split; apply is_max_snoc; assumption.
    + rewrite app_nil_r. split; [exact B|exact C].
Qed.

(** ** getters *)
Lemma get_fold (lowest : R) (has : bool * bool -> bool) (v : bool * bool -> R) slots :
  forall e f l,
  (forall x, In x slots -> has x = true -> lowest < v x) ->
  (f = false -> e = lowest /\ l = []) -> (f = true -> is_max l e) ->
  let res := fold_left (fun st it => if has it && Rltb (fst st) (v it) then (v it, true) else st) slots (e, f) in
  let l' := l ++ map v (filter has slots) in
  (snd res = false -> fst res = lowest /\ l' = []) /\ (snd res = true -> is_max l' (fst res)).
Proof.
  induction slots as [|x slots IH]; intros e f l Hv H0 H1; cbn zeta.
  - cbn. rewrite app_nil_r. split; auto.
  - cbn [fold_left filter fst]. destruct (has x) eqn:Hx; cbn [andb].
    + replace (l ++ map v (x :: filter has slots)) with ((l ++ [v x]) ++ map v (filter has slots))
        by (rewrite <- app_assoc; reflexivity).
      assert (Lx := Hv x (or_introl eq_refl) Hx).
      destruct (Rltb_spec e (v x)) as [L|L]; apply IH; try (intros; apply Hv; cbn; auto; fail).
      * discriminate.
      * intros _. destruct f.
        -- replace (v x) with (Rmax e (v x)) at 2 by (apply Rmax_right; lra). apply is_max_snoc, H1. reflexivity.
        -- destruct (H0 eq_refl) as [_ ->]. split; cbn; auto. intros y [<-|[]]. lra.
      * intros Hf. destruct (H0 Hf) as [-> ->]. lra.
      * intros Hf. replace e with (Rmax e (v x)) by (apply Rmax_left; lra). apply is_max_snoc, H1, Hf.
    + apply IH; auto. intros; apply Hv; cbn; auto.
Qed.

(** the maxima over slots are the maximum over all contacts that count for some slot *)
Lemma getter_spec lowest k sh c ct rs (val : gres R -> R) (lval : lerr R -> R * R) slots :
  lowest < 0 ->
  (forall r, In r rs -> lowest / 2 < gr_err r /\ lowest / 2 < gr_errb r) ->
  (forall i t, filter (counts i t) rs <> [] ->
     is_max (map val (filter (counts i t) rs)) (side (lval (side (gs_max (built lowest k sh c ct rs)) i)) t)) ->
  (forall r, In r rs -> lowest / 2 < val r) ->
  reports_max (map val (filter (fun r => existsb (fun it => counts (fst it) (snd it) r) slots) rs))
    (get_max lowest lval slots (built lowest k sh c ct rs)).
Proof.
  intros Hneg Hl Hmax Hval. set (s := built lowest k sh c ct rs).
  assert (Hhas : forall it, side (has_error (side (gs_max s) (fst it))) (snd it) = existsb (counts (fst it) (snd it)) rs).
  { intros [i t]. apply (slots_built lowest k sh c ct rs i t). intros r Hr. specialize (Hl r Hr). lra. }
  assert (Hne : forall it, existsb (counts (fst it) (snd it)) rs = true -> filter (counts (fst it) (snd it)) rs <> []).
  { intros [i t] E. apply existsb_exists in E as (r & A & B). intros F. assert (In r (filter (counts i t) rs)) by (apply filter_In; auto).
    cbn [fst snd] in F. rewrite F in H. destruct H. }
  set (has := fun it : bool * bool => side (has_error (side (gs_max s) (fst it))) (snd it)).
  set (v := fun it : bool * bool => side (lval (side (gs_max s) (fst it))) (snd it)).
  unfold get_max. change (@nltb R _) with Rltb.
  assert (Hv : forall x, has x = true -> lowest / 2 < v x).
  { intros it E. unfold has in E. rewrite Hhas in E. apply Hne in E. apply (Hmax (fst it) (snd it)) in E as [E _].
    apply in_map_iff in E as (r & Er & Hr). apply filter_In in Hr as [Hr _]. unfold v, s. rewrite <- Er. apply Hval, Hr. }
  destruct (get_fold lowest has v slots lowest false []) as [G0 G1]; auto; try discriminate.
  { intros x _ E. apply Hv in E. lra. }
  cbn [app] in G0, G1. change (fun (st : R * bool) (it : bool * bool) =>
      if side (has_error (side (gs_max s) (fst it))) (snd it) && Rltb (fst st) (side (lval (side (gs_max s) (fst it))) (snd it))
      then (side (lval (side (gs_max s) (fst it))) (snd it), true) else st)
    with (fun (st : R * bool) it => if has it && Rltb (fst st) (v it) then (v it, true) else st).
  destruct (fold_left _ slots (lowest, false)) as [e f]. cbn [fst snd] in *. destruct f; cbn [negb].
  - right. specialize (G1 eq_refl). exists e. destruct G1 as [A B].
    apply in_map_iff in A as (it & Ev & Hit). apply filter_In in Hit as [Hit Hh].
    assert (L : lowest / 2 < e) by (rewrite <- Ev; apply Hv, Hh).
    rnum. destruct (Rltb_spec (lowest / 2) e); [|lra]. split; [reflexivity|]. split.
    + pose proof Hh as Hh'. unfold has in Hh'. rewrite Hhas in Hh'. apply Hne in Hh'. apply (Hmax (fst it) (snd it)) in Hh' as [E _].
      apply in_map_iff in E as (r & Er & Hr). apply filter_In in Hr as [Hr Hc]. apply in_map_iff. exists r. split.
      * rewrite <- Ev. exact Er.
      * apply filter_In. split; [exact Hr|]. apply existsb_exists. exists it. auto.
    + intros x Hx. apply in_map_iff in Hx as (r & <- & Hr). apply filter_In in Hr as [Hr Hc].
      apply existsb_exists in Hc as (it' & Hi' & Hc').
      assert (Hh' : has it' = true) by (unfold has; rewrite Hhas; apply existsb_exists; eauto).
      apply Rle_trans with (v it').
      * pose proof Hh' as E. unfold has in E. rewrite Hhas in E. apply Hne in E. apply (Hmax (fst it') (snd it')) in E as [_ E].
        apply E. apply in_map. apply filter_In. auto.
      * apply B. apply in_map. apply filter_In. auto.
  - left. destruct (G0 eq_refl) as [_ G]. apply map_eq_nil in G.
    split; [|reflexivity]. destruct (filter _ rs) as [|r l] eqn:F; [reflexivity|]. exfalso.
    assert (Hr : In r (r :: l)) by (cbn; auto). rewrite <- F in Hr. apply filter_In in Hr as [Hr Hc].
    apply existsb_exists in Hc as (it & Hi & Hc). assert (Hit : In it (filter has slots)).
    { apply filter_In. split; [exact Hi|]. unfold has. rewrite Hhas. apply existsb_exists. eauto. }
    rewrite G in Hit. destruct Hit.
Qed.

Lemma reports_ext (p q : gres R -> bool) (val : gres R -> R) rs o :
  (forall r, p r = q r) -> reports_max (map val (filter p rs)) o -> reports_max (map val (filter q rs)) o.
Proof. intros E. rewrite (filter_ext_in' p q rs E). auto. Qed.

Lemma getters lowest k sh c ct rs :
  lowest < 0 ->
  (forall r, In r rs -> lowest / 2 < gr_err r /\ lowest / 2 < gr_errb r) ->
  let s := built lowest k sh c ct rs in
  reports_max (map gr_err (filter counts_any rs)) (getMaxError lowest s) /\
  reports_max (map gr_errb (filter counts_any rs)) (getMaxErrorWithBuffer lowest s) /\
  forall t,
  reports_max (map gr_err (filter (counts_t t) rs)) (getMaxErrorT lowest t s) /\
  reports_max (map gr_errb (filter (counts_t t) rs)) (getMaxErrorWithBufferT lowest t s).
Proof.
  intros Hn Hl s.
  assert (HS : forall i t, filter (counts i t) rs <> [] ->
    is_max (map gr_err (filter (counts i t) rs)) (slot_err s i t) /\ is_max (map gr_errb (filter (counts i t) rs)) (slot_errb s i t)).
  { intros i t. apply (slots_built lowest k sh c ct rs i t). intros r Hr. specialize (Hl r Hr). lra. }
  assert (E : forall sl, reports_max (map gr_err (filter (fun r => existsb (fun it => counts (fst it) (snd it) r) sl) rs)) (get_max lowest lerror sl s)).
  { intros sl. apply getter_spec; auto; [intros; apply HS; auto|intros; apply Hl; auto]. }
  assert (F : forall sl, reports_max (map gr_errb (filter (fun r => existsb (fun it => counts (fst it) (snd it) r) sl) rs)) (get_max lowest lerrb sl s)).
  { intros sl. apply getter_spec; auto; [intros; apply HS; auto|intros; apply Hl; auto]. }
  assert (A1 : forall r, existsb (fun it : bool * bool => counts (fst it) (snd it) r) slots_all = counts_any r).
  { intros r. unfold counts_any, counts_t. cbn [existsb slots_all fst snd].
    destruct (counts false false r), (counts false true r), (counts true false r), (counts true true r); reflexivity. }
  assert (A2 : forall t r, existsb (fun it : bool * bool => counts (fst it) (snd it) r) (slots_t t) = counts_t t r).
  { intros t r. unfold counts_t. cbn [existsb slots_t fst snd]. destruct (counts false t r), (counts true t r); reflexivity. }
  split; [|split]; [| |intros t; split]; eapply reports_ext; try apply E; try apply F; try apply A1; apply A2.
Qed.

Lemma slots_perm lowest k sh c ct rs rs' :
  (forall r, In r rs -> lowest <= gr_err r /\ lowest <= gr_errb r) -> Permutation rs rs' ->
  gs_max (built lowest k sh c ct rs) = gs_max (built lowest k sh c ct rs').
Proof.
  intros Hl P.
  assert (Hl' : forall r, In r rs' -> lowest <= gr_err r /\ lowest <= gr_errb r).
  { intros r Hr. apply Hl. eapply Permutation_in; [apply Permutation_sym; exact P|exact Hr]. }
  assert (E : forall i t, slot_has (built lowest k sh c ct rs) i t = slot_has (built lowest k sh c ct rs') i t /\
    slot_err (built lowest k sh c ct rs) i t = slot_err (built lowest k sh c ct rs') i t /\
    slot_errb (built lowest k sh c ct rs) i t = slot_errb (built lowest k sh c ct rs') i t).
  { intros i t. destruct (slots_built lowest k sh c ct rs i t Hl) as (A & B & C).
    destruct (slots_built lowest k sh c ct rs' i t Hl') as (A' & B' & C'). cbn zeta in *.
    assert (PF : Permutation (filter (counts i t) rs) (filter (counts i t) rs')).
    { clear - P. induction P; cbn; auto.
      - destruct (counts i t x); auto.
      - destruct (counts i t y), (counts i t x); auto; constructor.
      - eapply Permutation_trans; eauto. }
    split.
    - rewrite A, A'. apply eq_true_iff_eq. rewrite !existsb_exists. split; intros (r & H1 & H2); exists r; split; auto.
      + eapply Permutation_in; eauto.
      + eapply Permutation_in; [apply Permutation_sym|]; eauto.
    - destruct (filter (counts i t) rs) as [|r0 l0] eqn:F.
      + apply Permutation_nil in PF. rewrite PF in *. destruct (B eq_refl) as [-> ->], (B' eq_refl) as [-> ->]. auto.
      + destruct (filter (counts i t) rs') as [|r1 l1] eqn:F'; [apply Permutation_sym, Permutation_nil in PF; discriminate|].
        destruct C as [C1 C2]; [discriminate|]. destruct C' as [C1' C2']; [discriminate|].
        split; [eapply is_max_uniq; [eapply is_max_perm; [apply Permutation_map, PF|exact C1]|exact C1']|eapply is_max_uniq; [eapply is_max_perm; [apply Permutation_map, PF|exact C2]|exact C2']]. }
  unfold slot_has, slot_err, slot_errb in E.
  destruct (gs_max (built lowest k sh c ct rs)) as [[[] [] []] [[] [] []]].
  destruct (gs_max (built lowest k sh c ct rs')) as [[[] [] []] [[] [] []]].
  pose proof (E false false) as E00. pose proof (E false true) as E01. pose proof (E true false) as E10. pose proof (E true true) as E11.
  cbn in E00, E01, E10, E11. destruct E00 as (-> & -> & ->), E01 as (-> & -> & ->), E10 as (-> & -> & ->), E11 as (-> & -> & ->). reflexivity.
Qed.

(** ** sorting *)
Lemma sorted_app_rel {A} (P : A -> A -> Prop) l1 l2 : StronglySorted P (l1 ++ l2) ->
  forall a b, In a l1 -> In b l2 -> P a b.
Proof.
  induction l1 as [|x l1 IH]; cbn; intros HS a b Ha Hb; [destruct Ha|].
  apply StronglySorted_inv in HS as [HS HF]. rewrite Forall_forall in HF.
  destruct Ha as [<-|Ha]; [apply HF, in_or_app; auto|eauto].
Qed.

Lemma may_sort_perm {A} (less : A -> A -> Prop) m l l' : may_sort less m l l' -> Permutation l l'.
Proof. intros [[_ ->]|(_ & P & _)]; auto. Qed.

Lemma may_sort_kept {A} (less : A -> A -> Prop) m l l' : may_sort less m l l' ->
  forall a b, In a (firstn m l') -> In b (skipn m l') -> ~ less b a.
Proof.
  intros [[L ->]|(L & P & HS)] a b Ha Hb.
  - rewrite skipn_all2 in Hb by lia. destruct Hb.
  - rewrite <- (firstn_skipn m l') in HS. eapply sorted_app_rel in HS; eauto.
Qed.

(** ** continuous measure *)
Lemma measure_spec lowest k sh c ct rs v0 v1 :
  lowest < 0 -> (forall r, In r rs -> lowest / 2 < gr_err r /\ lowest / 2 < gr_errb r) ->
  v0 && v1 = false ->
  reports_max (map gr_errb (filter (relevant v0 v1) rs)) (cont_measure lowest v0 v1 (built lowest k sh c ct rs)).
Proof.
  intros Hn Hl Hv. destruct (getters lowest k sh c ct rs Hn Hl) as (_ & B & C).
  unfold cont_measure, relevant. destruct v0, v1; try discriminate; cbn [negb andb].
  - apply C.
  - apply (C false).
  - exact B.
Qed.

Lemma value_spec lowest k sh c ct rs v0 v1 buffer :
  lowest < 0 -> (forall r, In r rs -> lowest / 2 < gr_err r /\ lowest / 2 < gr_errb r) ->
  filter (relevant v0 v1) rs <> [] ->
  exists m, continuous_value lowest v0 v1 buffer (built lowest k sh c ct rs) = Ok (Some m) /\
    is_max (map gr_err (filter (relevant v0 v1) rs)) m.
Proof.
  intros Hn Hl Hne. destruct (getters lowest k sh c ct rs Hn Hl) as (A & _ & C).
  unfold continuous_value, relevant in *. destruct (negb v0 && negb v1) eqn:E.
  - destruct A as [[F _]|A]; [apply map_eq_nil in F; contradiction|exact A].
  - assert (Hh : has_t v0 (built lowest k sh c ct rs) = true).
    { unfold has_t. destruct (slots_built lowest k sh c ct rs false v0) as (H0 & _); [intros r Hr; specialize (Hl r Hr); lra|].
      destruct (slots_built lowest k sh c ct rs true v0) as (H1 & _); [intros r Hr; specialize (Hl r Hr); lra|].
      unfold slot_has in H0, H1. cbn [side] in H0, H1. rewrite H0, H1.
      destruct (filter (counts_t v0) rs) as [|r l] eqn:F; [congruence|].
      assert (Hr : In r (filter (counts_t v0) rs)) by (rewrite F; cbn; auto). apply filter_In in Hr as [Hr Hc].
      unfold counts_t in Hc. apply orb_prop in Hc as [Hc|Hc]; apply orb_true_iff; [left|right]; apply existsb_exists; eauto. }
    rewrite Hh. destruct (C v0) as [[[F _]|D] _]; [apply map_eq_nil in F; contradiction|exact D].
Qed.

Lemma gather_ok {A} (l : list (outcome (option A))) : (forall o, In o l -> exists a, o = Ok (Some a)) ->
  exists vs, gather l = Ok (Some vs) /\ Forall2 (fun o v => o = Ok (Some v)) l vs.
Proof.
  induction l as [|o l IH]; intros H; [exists []; split; [reflexivity|constructor]|].
  destruct (H o) as [a ->]; [cbn; auto|]. destruct IH as (vs & E & F); [intros; apply H; cbn; auto|].
  exists (a :: vs). cbn [gather]. unfold obind. rewrite E. split; [reflexivity|]. constructor; auto.
Qed.

Lemma Forall2_In_l {A B} (P : A -> B -> Prop) l l' a : Forall2 P l l' -> In a l -> exists b, In b l' /\ P a b.
Proof. induction 1; intros []; [subst; eexists; cbn; eauto|]. destruct IHForall2 as (b & ? & ?); auto. exists b. cbn. auto. Qed.

(** ** grouping *)
Lemma zpaireqb_eq p q : zpaireqb p q = true <-> p = q.
Proof. destruct p, q. unfold zpaireqb. cbn. rewrite andb_true_iff, !Z.eqb_eq. split; [intros [-> ->]; auto|intros [= -> ->]; auto]. Qed.
Lemma zpairltb_trans p q r : zpairltb p q = true -> zpairltb q r = true -> zpairltb p r = true.
Proof. destruct p, q, r. unfold zpairltb. cbn. rewrite !orb_true_iff, !andb_true_iff, !Z.ltb_lt, !Z.eqb_eq. lia. Qed.
Lemma zpairltb_total p q : zpairltb p q = false -> zpaireqb p q = false -> zpairltb q p = true.
Proof.
  destruct p as [a b], q as [x y]. unfold zpairltb, zpaireqb. cbn.
  destruct (Z.ltb_spec a x), (Z.eqb_spec a x), (Z.ltb_spec b y), (Z.eqb_spec b y); cbn; try discriminate;
  intros _ _; rewrite orb_true_iff, andb_true_iff, !Z.ltb_lt, Z.eqb_eq; lia.
Qed.
Lemma zpairltb_irrefl p : zpairltb p p = false.
Proof. destruct p. unfold zpairltb. cbn. rewrite !Z.ltb_irrefl, andb_false_r. reflexivity. Qed.

Section Grouping.
  Variables (lowest : R) (key : Z -> Z -> Z) (grad : nat * nat -> contact R -> gres R) (d : coeffs R) (cont : bool) (k : nat * nat).
  Notation skey := (shape_key key).
  Notation coeff := (getCollisionCoeff d (fst k) (snd k)).
  Definition group (cs : list (contact R)) (sh : Z * Z) : gset R :=
    built lowest k sh coeff cont (map (grad k) (filter (fun c => zpaireqb (skey c) sh) cs)).
  Definition grouped (cs : list (contact R)) (l : list (gset R)) : Prop :=
    StronglySorted (fun a b => zpairltb (gs_shape a) (gs_shape b) = true) l /\
    forall s, In s l <-> exists c, In c cs /\ s = group cs (skey c).

  Lemma group_shape cs sh : gs_shape (group cs sh) = sh. Proof. apply built_shape. Qed.

  Lemma group_snoc cs c sh : group (cs ++ [c]) sh = if zpaireqb (skey c) sh then gs_add (group cs sh) (grad k c) else group cs sh.
  Proof.
    unfold group. rewrite filter_app, map_app. cbn [filter]. destruct (zpaireqb (skey c) sh); cbn [map].
    - apply built_snoc.
    - rewrite app_nil_r. reflexivity.
  Qed.

  Lemma insert_fold c cs l :
    (* the sets below the new key are untouched *)
    StronglySorted (fun a b => zpairltb (gs_shape a) (gs_shape b) = true) l ->
    (forall s, In s l -> s = group cs (gs_shape s)) ->
    let fresh := gset_new lowest k (skey c) coeff cont in
    let l' := shape_insert (skey c) fresh (grad k c) l in
    StronglySorted (fun a b => zpairltb (gs_shape a) (gs_shape b) = true) l' /\
    (forall s, In s l' <->
       (In s l /\ gs_shape s <> skey c) \/
       (s = gs_add (match find (fun s => zpaireqb (skey c) (gs_shape s)) l with Some s0 => s0 | None => fresh end) (grad k c))).
  Proof.
    induction l as [|s0 l IH]; intros HS HG fresh; cbn zeta.
    - cbn. split; [repeat constructor|]. intros s. intuition.
    - apply StronglySorted_inv in HS as [HS HF]. rewrite Forall_forall in HF.
      cbn [shape_insert find]. destruct (zpaireqb (skey c) (gs_shape s0)) eqn:E.
      + apply zpaireqb_eq in E. split.
        * constructor; [exact HS|]. rewrite Forall_forall. intros s Hs. cbn [gs_add gs_shape]. apply HF, Hs.
        * intros s. cbn [In]. split.
          -- intros [<-|H]; [right; reflexivity|left; split; auto]. intros Es. specialize (HF s H).
             rewrite Es, E, zpairltb_irrefl in HF. discriminate.
          -- intros [[[->|H] Hn]| ->]; auto. congruence.
      + destruct (zpairltb (skey c) (gs_shape s0)) eqn:L.
        * assert (Hall : forall s, In s (s0 :: l) -> zpairltb (skey c) (gs_shape s) = true).
          { intros s [<-|H]; auto. eapply zpairltb_trans; eauto. }
          assert (Hnone : find (fun s => zpaireqb (skey c) (gs_shape s)) l = None).
          { destruct (find _ l) as [s|] eqn:Fd; auto. apply find_some in Fd as [H1 H2]. apply zpaireqb_eq in H2.
            specialize (Hall s (or_intror H1)). rewrite H2, zpairltb_irrefl in Hall. discriminate. }
          rewrite Hnone. split.
          -- constructor; [constructor; [exact HS|rewrite Forall_forall; exact HF]|]. rewrite Forall_forall. intros s Hs.
             cbn [gs_add gs_shape gset_new]. apply Hall, Hs.
          -- intros s. change (In s (gs_add fresh (grad k c) :: s0 :: l)) with (gs_add fresh (grad k c) = s \/ In s (s0 :: l)). split.
             ++ intros [<-|H]; [right; reflexivity|left; split; auto]. intros Es. specialize (Hall s H).
                rewrite Es, zpairltb_irrefl in Hall. discriminate.
             ++ intros [[H _]| ->]; auto.
        * destruct IH as [IS II]; auto; [intros; apply HG; cbn; auto|]. split.
          -- constructor; [exact IS|]. rewrite Forall_forall. intros s Hs. apply II in Hs as [[Hs _]| ->]; [apply HF, Hs|].
             cbn [gs_add gs_shape]. destruct (find _ l) as [s1|] eqn:Fd.
             ++ apply find_some in Fd as [H1 _]. apply HF, H1.
             ++ cbn [gset_new gs_shape]. apply zpairltb_total; auto.
          -- intros s. cbn [In]. unfold fresh. rewrite II. split.
             ++ intros [<-|[[H Hn]| ->]]; auto. left. split; auto. intros Es. rewrite Es in E.
                assert (zpaireqb (skey c) (skey c) = true) by (apply zpaireqb_eq; auto). congruence.
             ++ intros [[[H|H] Hn]| ->]; auto.
  Qed.

  Lemma pair_sets_grouped cs : grouped cs (pair_sets lowest key grad d cont (k, cs)).
  Proof.
    unfold pair_sets. cbn [fst snd]. induction cs as [|c cs IH] using rev_ind.
    - cbn. split; [constructor|]. intros s. split; [intros []|intros (c & [] & _)].
    - rewrite fold_left_app. cbn [fold_left]. destruct IH as [IS II].
      set (l := fold_left _ cs []) in *. destruct (insert_fold c cs l IS) as [JS JI].
      { intros s Hs. apply II in Hs as (c0 & _ & ->). rewrite group_shape. reflexivity. }
      split; [exact JS|]. intros s. rewrite JI. clear JI JS.
      assert (Hbase : match find (fun s => zpaireqb (skey c) (gs_shape s)) l with
                      | Some s0 => s0 | None => gset_new lowest k (skey c) coeff cont end = group cs (skey c)).
      { destruct (find _ l) as [s0|] eqn:F.
        - apply find_some in F as [H1 H2]. apply zpaireqb_eq in H2. apply II in H1 as (c0 & Hc & E). subst s0.
          rewrite group_shape in H2. rewrite H2. reflexivity.
        - unfold group. replace (filter (fun c0 => zpaireqb (skey c0) (skey c)) cs) with (@nil (contact R)); [reflexivity|].
          destruct (filter _ cs) as [|c0 r] eqn:Fc; auto. exfalso.
          assert (Hc : In c0 (filter (fun c0 => zpaireqb (skey c0) (skey c)) cs)) by (rewrite Fc; cbn; auto).
          apply filter_In in Hc as [Hc E]. apply zpaireqb_eq in E.
          assert (Hin : In (group cs (skey c0)) l) by (apply II; eauto).
          pose proof (find_none _ _ F _ Hin) as Hf. cbn in Hf. rewrite group_shape, E in Hf.
          assert (zpaireqb (skey c) (skey c) = true) by (apply zpaireqb_eq; auto). congruence. }
      rewrite Hbase. clear Hbase.
      assert (Hnew : group (cs ++ [c]) (skey c) = gs_add (group cs (skey c)) (grad k c)).
      { rewrite group_snoc. assert (zpaireqb (skey c) (skey c) = true) as -> by (apply zpaireqb_eq; auto). reflexivity. }
      split.
      + intros [[H Hn]| ->].
        * apply II in H as (c0 & Hc & ->). rewrite group_shape in Hn. exists c0. split; [apply in_or_app; auto|].
          rewrite group_snoc. destruct (zpaireqb (skey c) (skey c0)) eqn:E; auto. apply zpaireqb_eq in E. congruence.
        * exists c. split; [apply in_or_app; cbn; auto|]. rewrite Hnew. reflexivity.
      + intros (c0 & Hc & ->). destruct (zpaireqb (skey c) (skey c0)) eqn:E.
        * apply zpaireqb_eq in E. right. rewrite <- E. exact Hnew.
        * left. rewrite group_snoc, E, group_shape. split.
          -- apply II. exists c0. split; auto. apply in_app_or in Hc as [Hc|[<-|[]]]; auto.
             assert (zpaireqb (skey c) (skey c) = true) by (apply zpaireqb_eq; auto). congruence.
          -- intros Es. rewrite Es in E. assert (zpaireqb (skey c) (skey c) = true) by (apply zpaireqb_eq; auto). congruence.
  Qed.
End Grouping.
