(** * C47, C48: trajopt_common::Cache *)
From Coq Require Import List Arith Bool Lia.
From Verif Require Import Common CacheModel CacheSpec CacheProofs.
Import ListNotations.

(** ** C47 *)
(** A hit returns the pointer of the latest put for that key. *)
Theorem C47_get_returns_last_put :
  forall (K : Type) (keqb : K -> K -> bool), (forall a b, keqb a b = true <-> a = b) ->
  forall debug capacity os c h k s,
    crun keqb debug (cache_new capacity) [] os = Ok (c, h) ->
    kfind keqb k (c_map c) = Some s ->
    last_put keqb h k = Some s /\ (exists c', cget keqb k c = Ok (c', Some s)) /\
    exists c', cgetOrAcquire keqb k c = Ok (c', (Some s, true)).
Proof.
  intros K keqb Hk debug capacity os c h k s Hr Hf. apply run_ok in Hr as (e & W & HL & _); auto.
  pose proof Hf as Hi. apply (wf_find keqb Hk _ _ _ _ W) in Hi. split; [apply HL; exact Hi|].
  destruct (touch_wf _ _ _ _ W Hi) as (c' & Ht & _).
  unfold cget, cgetOrAcquire. rewrite Hf, Ht. cbn. eauto.
Qed.
Print Assumptions C47_get_returns_last_put.

(** A stored key is only lost by erase, by a put that concerns its key or its object, or, as the
    least recently used one, by a miss when every other slot is in use or held. *)
Theorem C47_retention :
  forall (K : Type) (keqb : K -> K -> bool), (forall a b, keqb a b = true <-> a = b) ->
  forall debug capacity os c h k s o c' r,
    crun keqb debug (cache_new capacity) [] os = Ok (c, h) ->
    kfind keqb k (c_map c) = Some s -> cstep keqb debug c o = Ok (c', r) ->
    kfind keqb k (c_map c') = Some s \/
    o = CErase k \/ (exists p, o = CPut k p) \/ (exists k', o = CPut k' (PSlot s)) \/
    (exists k', o = CAcquire k' /\ r = RAcquire (Some s) false /\ (exists l, c_lru c = l ++ [s]) /\
       forall x, x < c_cap c -> (exists k2, kfind keqb k2 (c_map c) = Some x) \/ held h x = true).
Proof.
  intros K keqb Hk debug capacity os c h k s o c' r Hr Hf Hs. apply run_ok in Hr as (e & HI); auto.
  pose proof HI as (W & HL & HO). pose proof Hf as Hi. apply (wf_find keqb Hk _ _ _ _ W) in Hi.
  destruct (step_hok keqb Hk debug c e h o HI) as (c2 & r2 & e' & Hs2 & (W' & _) & Hm); [right; congruence|].
  rewrite Hs in Hs2. injection Hs2 as <- <-.
  assert (Hgoal : In (k, s) e' -> kfind keqb k (c_map c') = Some s) by (intros H; apply (wf_find keqb Hk _ _ _ _ W'); exact H).
  assert (Hmtf : forall k0 s0, In (k0, s0) e -> In (k, s) ((k0, s0) :: nokey keqb k0 e)).
  { intros k0 s0 H0. destruct (keqb k0 k) eqn:E.
    - apply Hk in E. subst k0. left.
      assert (E : (k, s0) = (k, s)) by (eapply (NoDup_map_In fst); [apply W|exact H0|exact Hi|reflexivity]). congruence.
    - right. apply In_nokey; auto. split; auto. intros ->. rewrite (keqb_refl keqb Hk) in E. discriminate. }
  destruct o as [k0|k0|k0 p|k0]; destruct r as [[s0|]|[s0|] [|]|[|]|]; try contradiction;
    try (destruct p; contradiction).
  - left. apply Hgoal. destruct Hm as (A & -> & _). apply Hmtf. exact A.
  - left. apply Hgoal. destruct Hm as (A & -> & _). exact Hi.
  - left. apply Hgoal. destruct Hm as (A & -> & _). apply Hmtf. exact A.
  - destruct Hm as (Hn & [(A & -> & _)|[(Hno & [k' He] & _)|(_ & He & _)]]).
    + left. apply Hgoal, Hi.
    + destruct (Nat.eq_dec s0 s) as [->|Hne].
      * right. right. right. right. exists k0. split; [reflexivity|]. split; [reflexivity|]. split.
        -- exists (map snd e'). rewrite (wf_lru _ _ W), He, map_app. reflexivity.
        -- intros x Hx. destruct (c_assigned c x) eqn:Ea.
           ++ left. apply (wf_asg _ _ W) in Ea. apply in_map_iff in Ea as ([k2 x'] & E & H). cbn in E. subst x'.
              exists k2. apply (wf_find keqb Hk _ _ _ _ W). exact H.
           ++ right. rewrite <- HO. destruct (c_out c x) eqn:Eo; auto. exfalso. apply (Hno x). unfold avail. auto.
      * left. apply Hgoal. rewrite He in Hi. apply in_app_or in Hi as [Hi|[[= _ E]|[]]]; [exact Hi|congruence].
    + rewrite He in Hi. destruct Hi.
  - destruct p as [| |s0]; try contradiction. destruct Hm as (A & -> & _).
    destruct (keqb k0 k) eqn:E; [apply Hk in E; subst k0; right; right; left; eauto|].
    destruct (Nat.eq_dec s0 s) as [->|Hne]; [right; right; right; left; eauto|].
    left. apply Hgoal. right. apply In_nokey; auto. split.
    + apply In_noslot. split; auto.
    + intros ->. rewrite (keqb_refl keqb Hk) in E. discriminate.
  - left. apply Hgoal. destruct p; destruct Hm as [-> _]; exact Hi.
  - destruct (keqb k0 k) eqn:E; [apply Hk in E; subst k0; right; left; reflexivity|].
    left. apply Hgoal. destruct Hm as [-> _]. apply In_nokey; auto. split; auto. intros ->. rewrite (keqb_refl keqb Hk) in E. discriminate.
Qed.
Print Assumptions C47_retention.

(** In the documented usage pattern (ask; on a miss compute into the object and put) every request
    yields the computed value, and exactly the last [capacity] distinct keys are stored, most
    recently used first. *)
Theorem C47_usage_pattern :
  forall (K : Type) (keqb : K -> K -> bool), (forall a b, keqb a b = true <-> a = b) ->
  forall (V : Type) (f : K -> V) capacity heap ks,
    exists c heap' vs,
      cmemos keqb f ks (cache_new capacity, heap) = Ok (c, heap', vs) /\
      map snd vs = map f ks /\
      c_cap c = Nat.max 1 capacity /\
      (forall k, In k (firstn (Nat.max 1 capacity) (recent keqb (rev ks))) <->
                 exists s, kfind keqb k (c_map c) = Some s) /\
      (forall k s, kfind keqb k (c_map c) = Some s -> heap' s = f k).
Proof.
  intros K keqb Hk V f capacity heap ks.
  destruct (memos_inv keqb Hk f _ ks [] _ (minv_new keqb f capacity heap)) as (c & h & vs & -> & Hv & HI).
  rewrite app_nil_r in HI. destruct HI as (e & W & Hcap & _ & Hke & Hh). cbn [fst snd] in *.
  assert (E : S (capacity - 1) = Nat.max 1 capacity) by lia. rewrite E in *.
  exists c, h, vs. split; [reflexivity|]. split; [exact Hv|]. split; [exact Hcap|]. split.
  - intros k. rewrite <- Hke. split.
    + intros H. apply in_map_iff in H as ([k' s] & Ek & H). cbn in Ek. subst k'. exists s. apply (wf_find keqb Hk _ _ _ _ W), H.
    + intros [s H]. apply (wf_find keqb Hk _ _ _ _ W) in H. eapply in_keys; eauto.
  - intros k s H. apply Hh. apply (wf_find keqb Hk _ _ _ _ W), H.
Qed.
Print Assumptions C47_usage_pattern.

Example C47_ex : exists c h vs,
  cmemos Nat.eqb (fun k => k * 10) [1; 2; 1; 3; 2; 1] (cache_new 2, fun _ => 0) = Ok (c, h, vs) /\
  map snd vs = [10; 20; 10; 30; 20; 10] /\ map fst vs = [1; 0; 1; 0; 1; 0] /\
  kfind Nat.eqb 3 (c_map c) = None /\ kfind Nat.eqb 2 (c_map c) = Some 1.
Proof. do 3 eexists. split; [vm_compute; reflexivity|]. repeat split. Qed.

(** ** C48 *)
(** No history leads to undefined behaviour (invalid iterator, out-of-range slot), and the
    bookkeeping stays consistent. *)
Theorem C48_consistent :
  forall (K : Type) (keqb : K -> K -> bool), (forall a b, keqb a b = true <-> a = b) ->
  forall capacity os, exists c h,
    crun keqb false (cache_new capacity) [] os = Ok (c, h) /\
    (forall k k' s, kfind keqb k (c_map c) = Some s -> kfind keqb k' (c_map c) = Some s -> k = k') /\
    (forall k s, kfind keqb k (c_map c) = Some s -> s < c_cap c /\ held h s = false) /\
    NoDup (c_lru c) /\ (forall s, In s (c_lru c) <-> exists k, kfind keqb k (c_map c) = Some s) /\
    csize c = length (c_lru c) /\ csize c <= c_cap c /\
    (forall k, kfind keqb k (c_map c) = None ->
       exists c' s, cgetOrAcquire keqb k c = Ok (c', (Some s, false)) /\
         held h s = false /\ (forall k', kfind keqb k' (c_map c') <> Some s) /\
         (c_cap c' <> c_cap c -> forall x, x < c_cap c -> held h x = true)).
Proof.
  intros K keqb Hk capacity os.
  destruct (run_hok keqb Hk false os [] _ _ (hok_new keqb capacity)) as (c & h & e & -> & HI); [auto|].
  pose proof HI as (W & HL & HO). exists c, h. split; [reflexivity|]. destruct (wf_size _ _ W) as (S1 & S2 & S3).
  assert (Hin : forall s, In s (c_lru c) <-> exists k, kfind keqb k (c_map c) = Some s).
  { intros s. rewrite (wf_lru _ _ W), in_map_iff. split.
    - intros ([k s'] & E & H). cbn in E. subst s'. exists k. apply (wf_find keqb Hk _ _ _ _ W), H.
    - intros [k H]. exists (k, s). split; auto. apply (wf_find keqb Hk _ _ _ _ W), H. }
  split; [|split; [|split; [|split; [|split; [|split]]]]]; auto.
  - intros k k' s H1 H2. apply (wf_find keqb Hk _ _ _ _ W) in H1, H2.
    assert (E : (k, s) = (k', s)) by (eapply (NoDup_map_In snd); [apply W|exact H1|exact H2|reflexivity]). congruence.
  - intros k s H. apply (wf_find keqb Hk _ _ _ _ W) in H. split; [apply (wf_bound _ _ W); eapply in_slots; eauto|].
    rewrite <- HO. destruct (c_out c s) eqn:E; auto. apply (wf_out _ _ W) in E as [_ E].
    rewrite (proj2 (wf_asg _ _ W s)) in E; [discriminate|eapply in_slots; eauto].
  - rewrite (wf_lru _ _ W). apply W.
  - congruence.
  - congruence.
  - intros k H. unfold cgetOrAcquire. rewrite H.
    destruct (acquire_wf keqb Hk _ _ W) as (c' & s & -> & Ho & Ha & Hs & Hc). cbn [obind].
    exists c', s. split; [reflexivity|].
    assert (Hfree : forall e', wf c' e' -> forall k', kfind keqb k' (c_map c') <> Some s).
    { intros e' W' k' H'. apply (wf_find keqb Hk _ _ _ _ W') in H'. apply in_slots in H'. apply (wf_asg _ _ W') in H'. congruence. }
    destruct Hc as [(Hav & W' & Hcap)|[(Hno & k' & e' & He & W' & Hcap)|(Hno & He & Hle & W' & Hcap)]].
    + split; [rewrite <- HO; apply Hav|]. split; [eapply Hfree; eauto|congruence].
    + split; [|split; [eapply Hfree; eauto|congruence]]. rewrite <- HO. destruct (c_out c s) eqn:E; auto.
      apply (wf_out _ _ W) in E as [_ E]. rewrite (proj2 (wf_asg _ _ W s)) in E; [discriminate|].
      rewrite He, map_app. apply in_or_app. right. left. reflexivity.
    + split; [|split; [eapply Hfree; eauto|]].
      * rewrite <- HO. destruct (c_out c s) eqn:E; auto. apply (wf_out _ _ W) in E as [E _]. lia.
      * intros _ x Hx. rewrite <- HO. destruct (c_out c x) eqn:E; auto. exfalso. apply (Hno x). unfold avail.
        split; [exact Hx|]. split; [|exact E]. destruct (c_assigned c x) eqn:Ea; auto.
        apply (wf_asg _ _ W) in Ea. rewrite He in Ea. destruct Ea.
Qed.
Print Assumptions C48_consistent.

Example C48_ex : exists c h,
  crun Nat.eqb false (cache_new 1) []
    [CAcquire 7; CPut 7 (PSlot 0); CAcquire 8; CAcquire 9; CPut 9 (PSlot 1); CPut 8 (PSlot 0); CPut 8 (PSlot 1);
     CErase 3; CPut 5 PForeign; CGet 8] = Ok (c, h) /\
  c_cap c = 2 /\ csize c = 1 /\ c_lru c = [1] /\ kfind Nat.eqb 8 (c_map c) = Some 1 /\ kfind Nat.eqb 7 (c_map c) = None.
Proof. do 2 eexists. split; [vm_compute; reflexivity|]. repeat split. Qed.

(** Finding: a pointer obtained from a hit is not protected.  After [capacity] further misses the
    object the caller still holds has been handed out again and overwritten. *)
Theorem C48_held_hit_pointer_refuted :
  exists (ks : list nat) c heap vs s,
    cmemos Nat.eqb (fun k => k * 10) ks (cache_new 2, fun _ => 0) = Ok (c, heap, vs) /\
    nth 1 vs (0, 0) = (s, 10) /\ nth 1 ks 0 = 1 /\ heap s = 30.
Proof. exists [1; 1; 2; 3]. do 4 eexists. split; [vm_compute; reflexivity|]. repeat split. Qed.
Print Assumptions C48_held_hit_pointer_refuted.
