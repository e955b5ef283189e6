(** * C49-C54, C78-C81: collision results, their grouping, ranking and averaging *)
From Coq Require Import List ZArith Bool Arith Reals Lra Lia Permutation Sorted.
From Verif Require Import Num NumFacts RSums Common CollisionModel CollisionSpec CollisionProofs CollisionAvgProofs.
Import ListNotations.
Local Open Scope R_scope.

(** ** C49 *)
(** Shape ids without subshape (subshape -1) share their key with another shape's subshape. *)
Theorem C49_refuted : exists a b a' b' h,
  (a, b) <> (a', b') /\ @cantorHash f64 f64_Num f64_trunc a b = Ok h /\ @cantorHash f64 f64_Num f64_trunc a' b' = Ok h.
Proof. exists 1%Z, (-1)%Z, 1%Z, 0%Z, 1%Z. split; [discriminate|]. split; vm_compute; reflexivity. Qed.
Print Assumptions C49_refuted.

(** Also with two proper subshape ids, once the pairing function exceeds 2^53. *)
Theorem C49_double_refuted : exists a b a' b' h,
  (0 <= a /\ 0 <= b /\ 0 <= a' /\ 0 <= b')%Z /\ (a, b) <> (a', b') /\
  @cantorHash f64 f64_Num f64_trunc a b = Ok h /\ @cantorHash f64 f64_Num f64_trunc a' b' = Ok h.
Proof.
  exists (2 ^ 30)%Z, 0%Z, (2 ^ 30 - 1)%Z, 1%Z. eexists. split; [lia|]. split; [intros [=]|].
  split; vm_compute; reflexivity.
Qed.
Print Assumptions C49_double_refuted.

(** In exact arithmetic the keys of proper subshapes are distinct, and so are those of shapes
    without subshapes.  Missing: the mixed case and rounding, see the refutations. *)
Theorem C49_partial : forall a b a' b' h,
  (0 <= a)%Z -> (0 <= a')%Z -> (0 <= b /\ 0 <= b' \/ b < 0 /\ b' < 0)%Z ->
  cantorHash Int_part a b = Ok h -> cantorHash Int_part a' b' = Ok h ->
  a = a' /\ (0 <= b -> b = b')%Z.
Proof.
  intros a b a' b' h Ha Ha' [[Hb Hb']|[Hb Hb']] E E'.
  - assert (M : (a + b + 1 <= int_max)%Z).
    { unfold cantorHash in E. destruct (Z.ltb_spec a 0), (Z.ltb_spec b 0), (Z.gtb_spec (a + b + 1) int_max); try lia; discriminate. }
    assert (M' : (a' + b' + 1 <= int_max)%Z).
    { unfold cantorHash in E'. destruct (Z.ltb_spec a' 0), (Z.ltb_spec b' 0), (Z.gtb_spec (a' + b' + 1) int_max); try lia; discriminate. }
    rewrite cantorHash_R in E, E' by assumption. injection E as <-. injection E' as E'.
    destruct (cantor_inj a b a' b'); auto.
  - unfold cantorHash in *. destruct (Z.ltb_spec a 0), (Z.ltb_spec b 0), (Z.ltb_spec a' 0), (Z.ltb_spec b' 0); try lia.
    injection E as <-. injection E' as <-. split; [reflexivity|lia].
Qed.
Print Assumptions C49_partial.

Example C49_ex : cantorHash Int_part 3 4 = Ok 32%Z /\ cantorHash Int_part 4 3 = Ok 31%Z /\ cantorHash Int_part 3 (-1) = Ok 3%Z.
Proof. split; [|split]; [rewrite cantorHash_R by (vm_compute; discriminate); reflexivity| |reflexivity].
  rewrite cantorHash_R by (vm_compute; discriminate). reflexivity. Qed.

(** ** C50 *)
Theorem C50_last_write_wins : forall (d : R) os a b,
  let t := coeff_run (coeff_new d) os in
  getCollisionCoeff t a b = match last_coeff a b os with Some c => c | None => last_default d os end /\
  getCollisionCoeff t a b = getCollisionCoeff t b a.
Proof.
  intros d os a b t. assert (E : forall a b, getCollisionCoeff t a b = match last_coeff a b os with Some c => c | None => last_default d os end).
  { intros a0 b0. unfold t. rewrite coeff_run_get. reflexivity. }
  split; [apply E|]. rewrite !E.
  replace (last_coeff b a os) with (last_coeff a b os); [reflexivity|].
  clear. induction os as [|[c|a' b' c] os IH]; cbn; auto. rewrite IH. destruct (last_coeff b a os); auto.
  rewrite orb_comm, (andb_comm (a =? b')%nat), (andb_comm (a =? a')%nat). reflexivity.
Qed.
Print Assumptions C50_last_write_wins.

(** The zero set contains every pair whose coefficient is at most 1e-6 in magnitude. *)
Theorem C50_zero_set_partial : forall (d : R) os a b,
  isZeroPair (coeff_run (coeff_new d) os) a b = true <-> exists c, last_coeff a b os = Some c /\ Rabs c <= / 1000000.
Proof.
  intros d os a b. rewrite coeff_run_zero. destruct (last_coeff a b os) as [c|].
  - rewrite almost_equal_zero. split; [eauto|]. intros (c' & [= <-] & H). exact H.
  - cbn. split; [discriminate|]. intros (c & [=] & _).
Qed.
Print Assumptions C50_zero_set_partial.

(** So a pair with a small non-zero coefficient is treated as if its coefficient were zero: its
    contacts are discarded. *)
Theorem C50_zero_set_refuted : exists (os : list (coeff_op R)) a b c,
  last_coeff a b os = Some c /\ c <> 0 /\ isZeroPair (coeff_run (coeff_new 1) os) a b = true /\
  forall margin buffer v0 v1 cs,
    contact_filter (coeff_run (coeff_new 1) os) margin buffer v0 v1 ((a, b), cs) = ((a, b), []).
Proof.
  exists [SetCoeff 1 2 (/ 10000000)], 1%nat, 2%nat, (/ 10000000).
  assert (Z : isZeroPair (coeff_run (coeff_new 1) [SetCoeff 1 2 (/ 10000000)]) 1 2 = true).
  { apply C50_zero_set_partial. exists (/ 10000000). split; [reflexivity|]. rewrite Rabs_right; lra. }
  split; [reflexivity|]. split; [lra|]. split; [exact Z|]. intros margin buffer v0 v1 cs.
  unfold contact_filter. cbn [fst snd]. unfold isZeroPair in Z. change (ordered_pair 1 2) with (1, 2)%nat in Z. rewrite Z. reflexivity.
Qed.
Print Assumptions C50_zero_set_refuted.

Example C50_ex : let os := [SetCoeff 1 2 5; SetDefault 7; SetCoeff 2 1 0; SetCoeff 3 4 0; SetCoeff 4 3 (2 : R)] in
  let t := coeff_run (coeff_new 1) os in
  getCollisionCoeff t 1 2 = 0 /\ getCollisionCoeff t 4 3 = 2 /\ getCollisionCoeff t 1 9 = 7 /\
  isZeroPair t 1 2 = true /\ isZeroPair t 3 4 = false.
Proof.
  intros os t. unfold t. rewrite !(proj1 (C50_last_write_wins 1 os _ _)).
  split; [reflexivity|]. split; [reflexivity|]. split; [reflexivity|]. split; [apply C50_zero_set_partial|].
  - exists 0. split; [reflexivity|]. rewrite Rabs_R0. lra.
  - destruct (isZeroPair _ 3 4) eqn:E; auto. apply C50_zero_set_partial in E as (c & [= <-] & H).
    rewrite Rabs_right in H; lra.
Qed.

(** ** C51 *)
(** The recorded maxima are the maxima over the added results that concern the slot. *)
Theorem C51_slots : forall lowest k sh c ct rs,
  (forall r, In r rs -> lowest <= gr_err r /\ lowest <= gr_errb r) ->
  forall i t, let m := side (gs_max (built lowest k sh c ct rs)) i in
  let rel := filter (counts i t) rs in
  (side (has_error m) t = true <-> rel <> []) /\
  (rel <> [] -> is_max (map gr_err rel) (side (lerror m) t) /\ is_max (map gr_errb rel) (side (lerrb m) t)).
Proof.
  intros lowest k sh c ct rs Hl i t m rel. destruct (slots_built lowest k sh c ct rs i t Hl) as (A & _ & C).
  split; [|exact C]. change (side (has_error m) t) with (slot_has (built lowest k sh c ct rs) i t). rewrite A, existsb_exists.
  unfold rel. split.
  - intros (r & H1 & H2) F. assert (H : In r (filter (counts i t) rs)) by (apply filter_In; auto). rewrite F in H. destruct H.
  - intros F. destruct (filter (counts i t) rs) as [|r l] eqn:E; [congruence|].
    assert (H : In r (filter (counts i t) rs)) by (rewrite E; cbn; auto). apply filter_In in H as [H1 H2]. eauto.
Qed.
Print Assumptions C51_slots.

(** Every getter returns the maximum over the contacts it is documented to cover, and throws exactly
    when there is none. *)
Theorem C51_getters : forall lowest k sh c ct rs, lowest < 0 ->
  (forall r, In r rs -> lowest / 2 < gr_err r /\ lowest / 2 < gr_errb r) ->
  let s := built lowest k sh c ct rs in
  reports_max (map gr_err (filter counts_any rs)) (getMaxError lowest s) /\
  reports_max (map gr_errb (filter counts_any rs)) (getMaxErrorWithBuffer lowest s) /\
  forall t,
  reports_max (map gr_err (filter (counts_t t) rs)) (getMaxErrorT lowest t s) /\
  reports_max (map gr_errb (filter (counts_t t) rs)) (getMaxErrorWithBufferT lowest t s).
Proof. exact getters. Qed.
Print Assumptions C51_getters.

Theorem C51_order_independent : forall lowest k sh c ct rs rs',
  (forall r, In r rs -> lowest <= gr_err r /\ lowest <= gr_errb r) -> Permutation rs rs' ->
  gs_max (built lowest k sh c ct rs) = gs_max (built lowest k sh c ct rs').
Proof. exact slots_perm. Qed.
Print Assumptions C51_order_independent.

Definition ex_link (h : bool) (g : list R) (cc : cctype) : lgrad R :=
  {| has_gradient := h; gradient := g; gscale := 1; gcc := cc |}.
Definition ex_res (e : R) (a b : lgrad R) : gres R := {| gr_err := e; gr_errb := e + 1; gr_grads := (a, b); gr_cc := (a, b) |}.
Definition ex_rs : list (gres R) :=
  [ex_res 3 (ex_link true [1; 0] CCTime0) (ex_link false [] CCNone);
   ex_res 2 (ex_link true [0; 1] CCBetween) (ex_link true [1; 1] CCTime1)].

Example C51_ex : exists m m1,
  getMaxErrorT (-1000) false (built (-1000) (1, 2)%nat (0, 0)%Z 1 true ex_rs) = Ok (Some m) /\ m = 3 /\
  getMaxErrorT (-1000) true (built (-1000) (1, 2)%nat (0, 0)%Z 1 true ex_rs) = Ok (Some m1) /\ m1 = 2.
Proof.
  destruct (C51_getters (-1000) (1, 2)%nat (0, 0)%Z 1 true ex_rs) as (_ & _ & H); [lra| |].
  { intros r [<-|[<-|[]]]; cbn; lra. }
  destruct (H false) as [[[F _]|(m & E & M1 & M2)] _]; [discriminate|].
  destruct (H true) as [[[F _]|(m1 & E1 & N1 & N2)] _]; [discriminate|].
  exists m, m1. split; [exact E|]. cbn in M1, M2, N1, N2. split.
  - destruct M1 as [<-|[<-|[]]]; auto. specialize (M2 3). lra.
  - split; [exact E1|]. destruct N1 as [<-|[]]. reflexivity.
Qed.

(** ** C52 *)
Lemma last_nth {A} (l : list A) d : last l d = nth (length l - 1) l d.
Proof.
  induction l as [|x l IH]; auto. destruct l as [|y l]; auto. cbn [last] in *. rewrite IH.
  cbn [length nth]. rewrite !Nat.sub_succ, !Nat.sub_0_r. reflexivity.
Qed.

(** LVS continuous / cast evaluators: the checked states start and end at the given states; they are
    the two states themselves when those are close enough (or when type CONTINUOUS asks for a single
    segment), and otherwise equally spaced, at most [lvs] apart, with no more states than needed. *)
Theorem C52_continuous : forall single lvs a b, 0 < lvs -> length a = length b ->
  let l := states_continuous sqrt Rceil single lvs a b in
  hd [] l = a /\ last l [] = b /\
  ((single = true \/ Rdist2 a b <= lvs) -> l = [a; b]) /\
  (single = false -> lvs < Rdist2 a b ->
     (forall r, (S r < length l)%nat -> Rdist2 (nth r l []) (nth (S r) l []) = Rdist2 a b / INR (length l - 1)) /\
     Rdist2 a b / INR (length l - 1) <= lvs < Rdist2 a b / INR (length l - 2)).
Proof.
  intros single lvs a b Hl Hlen l. unfold l, states_continuous. rewrite vnorm_R by exact Hlen.
  change (@nltb R _) with Rltb. destruct (negb single && Rltb lvs (Rdist2 a b)) eqn:E.
  - apply andb_prop in E as [E1 E2]. apply Rltb_true in E2. apply negb_true_iff in E1.
    destruct (seg_cnt_spec (Rdist2 a b) lvs Hl E2) as (C1 & C2 & C3 & C4).
    set (cnt := seg_cnt Rceil (Rdist2 a b) lvs) in *.
    assert (L : length (interp_rows cnt a b) = cnt) by (unfold interp_rows; rewrite map_length, seq_length; reflexivity).
    split; [|split]; [| |split].
    + rewrite <- (interp_first cnt a b) at 2 by (auto; lia). destruct (interp_rows cnt a b); reflexivity.
    + rewrite last_nth, L. apply interp_last; auto; lia.
    + intros [H|H]; [congruence|lra].
    + intros _ _. rewrite L. split; [|split; [exact C3|exact C4]]. intros r Hr. apply interp_step; lia.
  - split; [reflexivity|]. split; [reflexivity|]. split; [reflexivity|]. intros H1 H2.
    apply (proj2 (Rltb_true _ _)) in H2. subst single. rewrite H2 in E. discriminate.
Qed.
Print Assumptions C52_continuous.

(** LVS discrete evaluators always interpolate, with two states when they are close enough. *)
Theorem C52_discrete : forall lvs a b, 0 < lvs -> length a = length b ->
  let l := states_discrete sqrt Rceil lvs a b in
  nth 0 l [] = a /\ nth (length l - 1) l [] = b /\ (2 <= length l)%nat /\
  (Rdist2 a b <= lvs -> l = [a; b]) /\
  (forall r, (S r < length l)%nat -> Rdist2 (nth r l []) (nth (S r) l []) <= lvs).
Proof.
  intros lvs a b Hl Hlen l. unfold l, states_discrete. rewrite vnorm_R by exact Hlen.
  change (@nltb R _) with Rltb.
  assert (L : forall cnt, length (interp_rows cnt a b) = cnt) by (intros; unfold interp_rows; rewrite map_length, seq_length; reflexivity).
  rewrite !L. destruct (Rltb_spec lvs (Rdist2 a b)) as [H|H].
  - destruct (seg_cnt_spec (Rdist2 a b) lvs Hl H) as (C1 & C2 & C3 & C4).
    split; [apply interp_first; auto; lia|]. split; [apply interp_last; auto; lia|]. split; [lia|]. split; [lra|].
    intros r Hr. rewrite interp_step by lia. exact C3.
  - split; [apply interp_first; auto; lia|]. split; [apply (interp_last 2); auto; lia|]. split; [lia|].
    assert (E : interp_rows 2 a b = [a; b]).
    { pose proof (interp_first 2 a b) as E0. pose proof (interp_last 2 a b) as E1.
      specialize (L 2%nat). destruct (interp_rows 2 a b) as [|x [|y [|z r]]]; try discriminate. cbn in E0, E1.
      rewrite E0, E1 by auto. reflexivity. }
    split; [auto|]. intros r Hr. rewrite E. assert (r = 0)%nat by lia. subst. exact H.
Qed.
Print Assumptions C52_discrete.

Example C52_ex : (* a motion of length 5 with segments of at most 2: at least three segments *)
  let l := states_continuous sqrt Rceil false 2 [0; 0] [3; 4] in
  hd [] l = [0; 0] /\ last l [] = [3; 4] /\ 5 / INR (length l - 1) <= 2.
Proof.
  assert (D : Rdist2 [0; 0] [3; 4] = 5).
  { unfold Rdist2. cbn. replace ((3 - 0) * (3 - 0) + ((4 - 0) * (4 - 0) + 0)) with (5 * 5) by ring. apply sqrt_square. lra. }
  destruct (C52_continuous false 2 [0; 0] [3; 4]) as (A & B & _ & C); [lra|reflexivity|].
  rewrite D in C. destruct C as (_ & C & _); [reflexivity|lra|]. auto.
Qed.

(** ** C53 *)
(** The averaged gradient is the combination of the scaled gradients of the contacts that concern
    the given end, weighted by the positive part of their error with buffer (normalised). *)
Theorem C53_weighted_average : forall lowest k sh c ct rs t me n, lowest < 0 ->
  (forall r, In r rs -> lowest / 2 < gr_err r /\ lowest / 2 < gr_errb r) ->
  (forall r i, In r rs -> length (gradient (wgrad t r i)) = n) ->
  (forall r, In r rs -> consistent_ends t r) ->
  0 < me ->
  let es := wentries t (fun i => existsb (fun r => counts i t r && Rltb 0 (gr_errb r)) rs) rs in
  let w e := fst e / rsum fst es in
  exists v, wavg t (built lowest k sh c ct rs) me n = Ok v /\ length v = n /\
    (es = [] -> v = repeat 0 n) /\
    (es <> [] -> (forall e, In e es -> 0 <= w e) /\ rsum w es = 1 /\
       forall j, nth j v 0 = rsum (fun e => w e * nth j (snd e) 0) es).
Proof.
  intros lowest k sh c ct rs t me n Hn Hl Hg Hc Hme es w.
  destruct (entries_positive lowest k sh c ct rs t Hn Hl Hc) as (A & B & C).
  set (s := built lowest k sh c ct rs) in *.
  assert (Ees : wentries t (fun i => Rltb 0 (slot_errb s i t)) rs = es).
  { unfold es, wentries. apply flat_map_ext. intros r. apply flat_map_ext. intros i. rewrite B. reflexivity. }
  rewrite Ees in C.
  destruct (wavg_spec s me t n Hme A) as (v & E1 & E2 & E3 & E4).
  { unfold s. rewrite built_results. exact Hg. }
  { unfold s at 2 4. rewrite built_results, Ees. exact C. }
  unfold s in E3 at 2. unfold s in E4 at 2 4 6. rewrite built_results, Ees in E3, E4.
  exists v. split; [exact E1|]. split; [exact E2|]. split; [exact E3|]. intros Hne. specialize (C Hne).
  split; [|split].
  - intros e He. unfold w, Rdiv. apply Rmult_le_pos; [|apply Rlt_le, Rinv_0_lt_compat, C].
    apply entries_in in He as (r & i & _ & _ & _ & ->); auto. apply Rmax_r.
  - unfold w, Rdiv. rewrite rsum_scal_r. apply Rinv_r. lra.
  - apply E4, Hne.
Qed.
Print Assumptions C53_weighted_average.

Example C53_ex : exists v, wavg false (built (-1000) (1, 2)%nat (0, 0)%Z 1 true
    [ex_res 3 (ex_link true [1; 0] CCTime0) (ex_link false [0; 0] CCNone);
     ex_res 0 (ex_link true [0; 1] CCBetween) (ex_link true [1; 1] CCTime1)]) 4 2 = Ok v /\ v = [4 / 5; 1 / 5].
Proof.
  destruct (C53_weighted_average (-1000) (1, 2)%nat (0, 0)%Z 1 true
    [ex_res 3 (ex_link true [1; 0] CCTime0) (ex_link false [0; 0] CCNone);
     ex_res 0 (ex_link true [0; 1] CCBetween) (ex_link true [1; 1] CCTime1)] false 4 2) as (v & E & L & _ & F).
  - lra.
  - intros r [<-|[<-|[]]]; cbn; lra.
  - intros r i [<-|[<-|[]]]; destruct i; reflexivity.
  - intros r _ Ht. discriminate Ht.
  - lra.
  - exists v. split; [exact E|]. cbn in F. repeat rdec. cbn in F.
    rewrite (proj2 (Rltb_true 0 (3 + 1))) in F by lra. cbn in F.
    destruct F as (_ & _ & F); [discriminate|]. destruct v as [|x [|y [|z v]]]; try discriminate.
    pose proof (F 0%nat) as F0. pose proof (F 1%nat) as F1. cbn in F0, F1.
    unfold rsum in F0, F1. cbn in F0, F1. rewrite (Rmax_left (3 + 1)), (Rmax_left (0 + 1)) in F0, F1 by lra.
    f_equal; [lra|f_equal; lra].
Qed.
