(** * C143: the circular list of the convex decomposition *)
From Coq Require Import List Arith Bool Lia.
From Verif Require Import Common RingModel RingSpec RingProofs.
Import ListNotations.

Lemma new_holds {T} (m : mem T) : holds_in m cl_new [] [].
Proof. split; [reflexivity|]. split; [reflexivity|]. split; [split; [apply NoDup_nil|exact I]|constructor]. Qed.

(** Whatever is done with a new list, in whatever memory, as long as [Delete] is given an element
    of the list and the data is only read where there is some: every operation returns and does to
    the circular sequence what it should, what else is in memory is left alone, and of what was
    allocated exactly the elements of the list are left. *)
Theorem C143_run {T : Type} (m : mem T) ops :
  (forall a, live m a -> a < fresh m) -> may_all ops [] ->
  exists m' l rs ns xs, cl_run m cl_new ops = Ok (m', l, rs) /\
    makes_all ops [] xs rs /\ holds_in m' l ns xs /\
    (forall a, live m a -> cells m' a = cells m a /\ ~ In a ns) /\
    (forall a, live m' a <-> live m a \/ In a ns).
Proof.
  intros Hs Hm.
  destruct (run_holds ops m cl_new [] [] Hs (new_holds m) Hm)
    as (m' & l & rs & ns & xs & E & _ & Hh & Hk & [Hf Hl] & Hsub).
  exists m', l, rs, ns, xs. split; [exact E|]. split; [exact Hk|]. split; [exact Hh|]. split.
  - intros a Ha. split; [apply Hf; [exact Ha|easy]|]. intros Hi. apply (Hsub a Hi Ha).
  - intros a. rewrite Hl. cbn. tauto.
Qed.
Print Assumptions C143_run.

(** After whatever was done with a list, [Clear], which is also its destructor, gives back
    everything the list ever allocated. *)
Theorem C143_clear {T : Type} (m : mem T) ops :
  (forall a, live m a -> a < fresh m) -> may_all ops [] ->
  exists m' l rs, cl_run m cl_new (ops ++ [OClear]) = Ok (m', l, rs) /\
    csize l = Some 0 /\ chead l = Some None /\
    (forall a, live m' a <-> live m a) /\ (forall a, live m a -> cells m' a = cells m a).
Proof.
  intros Hs Hm.
  assert (Hm2 : may_all (ops ++ [OClear]) []).
  { revert Hm. generalize (@nil (option T)). induction ops as [|o ops IH]; intros xs Hm; cbn [app may_all] in *.
    - split; [exact I|]. now intros.
    - destruct Hm as [H1 H2]. split; [exact H1|]. intros xs' r Hk. apply IH. now apply (H2 xs' r). }
  destruct (C143_run m (ops ++ [OClear]) Hs Hm2) as (m' & l & rs & ns & xs & E & Hk & Hh & Hf & Hl).
  assert (Hx : xs = []).
  { clear - Hk. revert rs Hk. generalize (@nil (option T)) at 1.
    induction ops as [|o ops IH]; intros ys [|r rs] Hk; cbn [app makes_all] in Hk; try contradiction.
    - destruct Hk as (k & [Hk _] & Hr). destruct rs; [|contradiction]. now subst.
    - destruct Hk as (k & _ & Hk). now apply (IH k rs). }
  subst xs. destruct Hh as (Hsz & Hhd & _ & Hx). inversion Hx; subst ns.
  exists m', l, rs. split; [exact E|]. split; [exact Hsz|]. split; [exact Hhd|]. split.
  - intros a. rewrite Hl. cbn. tauto.
  - intros a Ha. now apply Hf.
Qed.
Print Assumptions C143_clear.

(** Assignment between two lists gives the left one the sequence of the right one, with the same
    head; the right one keeps it; and nothing done with the left one afterwards shows in the right
    one. *)
Theorem C143_assign {T : Type} (m : mem T) ops1 ops2 ops3 :
  (forall a, live m a -> a < fresh m) -> may_all ops1 [] -> may_all ops2 [] ->
  (forall xs2 rs2, makes_all ops2 [] xs2 rs2 -> may_all ops3 xs2) ->
  exists m1 l1 rs1 n1 xs1 m2 l2 rs2 n2 xs2,
    cl_run m cl_new ops1 = Ok (m1, l1, rs1) /\ holds_in m1 l1 n1 xs1 /\
    cl_run m1 cl_new ops2 = Ok (m2, l2, rs2) /\ makes_all ops2 [] xs2 rs2 /\ holds_in m2 l2 n2 xs2 /\
    holds_in m2 l1 n1 xs1 /\
    forall fuel, length xs1 < fuel -> length xs2 < fuel ->
      exists m3 l3 n3 m4 l4 rs4 xs4,
        cl_assign fuel m2 l1 l2 = Ok (m3, l3) /\ holds_in m3 l3 n3 xs2 /\ holds_in m3 l2 n2 xs2 /\
        (forall a, live m3 a <-> live m a \/ In a n2 \/ In a n3) /\
        cl_run m3 l3 ops3 = Ok (m4, l4, rs4) /\ makes_all ops3 xs2 xs4 rs4 /\ holds_in m4 l2 n2 xs2.
Proof.
  intros Hs H1 H2 H3.
  destruct (run_holds ops1 m cl_new [] [] Hs (new_holds m) H1)
    as (m1 & l1 & rs1 & n1 & xs1 & E1 & Hs1 & Hh1 & Hk1 & [Hf1 Hl1] & Hsub1).
  destruct (run_holds ops2 m1 cl_new [] [] Hs1 (new_holds m1) H2)
    as (m2 & l2 & rs2 & n2 & xs2 & E2 & Hs2 & Hh2 & Hk2 & [Hf2 Hl2] & Hsub2).
  exists m1, l1, rs1, n1, xs1, m2, l2, rs2, n2, xs2.
  assert (Hlv : forall a, In a n1 -> live m1 a) by (intros a Ha; apply Hl1; now right).
  assert (Hh12 : holds_in m2 l1 n1 xs1).
  { apply (holds_frame m1); [|exact Hh1]. intros a Ha. apply Hf2; [now apply Hlv|easy]. }
  split; [exact E1|]. split; [exact Hh1|]. split; [exact E2|]. split; [exact Hk2|]. split; [exact Hh2|].
  split; [exact Hh12|]. intros fuel Hx1 Hx2.
  assert (Hdis : forall a, In a n1 -> ~ In a n2) by (intros a Ha Hi; apply (Hsub2 a Hi); now apply Hlv).
  destruct (assign_holds fuel m2 l1 n1 xs1 l2 n2 xs2 Hx1 Hx2 Hs2 Hh12 Hh2 Hdis)
    as (m3 & l3 & n3 & E3 & Hs3 & Hh3 & Hh23 & Hdis3 & [Hf3 Hl3]).
  destruct (run_holds ops3 m3 l3 n3 xs2 Hs3 Hh3 (H3 xs2 rs2 Hk2))
    as (m4 & l4 & rs4 & n4 & xs4 & E4 & Hs4 & Hh4 & Hk4 & [Hf4 Hl4] & Hsub4).
  exists m3, l3, n3, m4, l4, rs4, xs4. split; [exact E3|]. split; [exact Hh3|]. split; [exact Hh23|].
  split; [|split; [exact E4|split; [exact Hk4|]]].
  - intros a. rewrite Hl3, Hl2, Hl1. cbn. split.
    + intros [[[[[[H _]|H] _]|H] H0']|H]; tauto.
    + intros [H|[H|H]]; [|left|now right].
      * left. split; [left; split; [left; tauto|tauto]|]. intros Hi. apply (Hsub1 a Hi H).
      * split; [now right|]. intros Hi. now apply (Hdis a).
  - apply (holds_frame m3); [|exact Hh23]. intros a Ha. apply Hf4.
    + destruct Hh23 as (_ & _ & _ & Hx). now apply (all_live m3 n2 xs2).
    + intros Hi. now apply (Hdis3 a).
Qed.
Print Assumptions C143_assign.

(** The copy constructor does not initialise the copy: copying any list that has elements is
    undefined, and the copy of an empty one cannot be asked for anything. *)
Theorem C143_copy {T : Type} (m : mem T) rhs ns xs fuel :
  holds_in m rhs ns xs ->
  match xs with
  | [] => exists c, cl_copy fuel m rhs = Ok (m, c) /\ forall o, cl_step m c o = Undef
  | _ => cl_copy (S fuel) m rhs = Undef
  end.
Proof.
  intros (Hsz & Hhd & [Hd Hc] & Hx). unfold cl_copy, size_of. rewrite Hsz. cbn [obind].
  destruct xs as [|x xs]; inversion Hx as [|h z ns0 zs Hcy Hxs]; subst; cbn [length].
  - eexists. split; [reflexivity|]. now intros [].
  - unfold head_of. rewrite Hhd. cbn [hd_error obind copy_loop].
    assert (Hn : exists b, next_of m h = Ok b /\ live m b).
    { destruct ns0 as [|b r]; cbn in Hc.
      - exists h. split; [apply Hc|]. now apply (carries_live m h x).
      - exists b. split; [apply Hc|]. inversion Hxs as [|? ? ? ? Hb _]; subst. now apply carries_live in Hb. }
    destruct Hn as (b & En & Hb). rewrite En. cbn [obind].
    destruct (live_load m b Hb) as (n & _ & El). rewrite El. reflexivity.
Qed.
Print Assumptions C143_copy.

(** Elements in, two steps on, one out, one in, back: 20, 30 and 40 are left, from 30 on; and the
    three nodes that are left are the only ones. *)
Definition no_mem : mem nat := Mem (fun _ => None) 0.
Definition ops_a : list (rop nat) :=
  [OAdd (Some 10); OAdd (Some 20); OAdd (Some 30); ONext; OData; ODelete; OAdd (Some 40); OPrev; OData; OSize].
Example C143_ex_run : exists m l, cl_run no_mem cl_new ops_a =
    Ok (m, l, [NNone; NNone; NNone; NBool true; NData 10; NBool true; NNone; NBool true; NData 20; NSize 3]) /\
  holds_in m l [1; 3; 2] [Some 20; Some 40; Some 30].
Proof.
  do 2 eexists. split; [vm_compute; reflexivity|]. split; [reflexivity|]. split; [reflexivity|]. split.
  - split; [|cbn; intuition; split; reflexivity]. repeat (apply NoDup_cons; [cbn; lia|]). apply NoDup_nil.
  - constructor; [eexists; split; reflexivity|]. constructor; [eexists; split; reflexivity|].
    constructor; [eexists; split; reflexivity|]. constructor.
Qed.
Example C143_ex_may : may_all ops_a [] /\ (forall a, live no_mem a -> a < fresh no_mem).
Proof.
  split; [|now intros a Ha]. unfold ops_a. cbn [may_all may].
  do 3 (split; [exact I|]; intros ? ? [_ ->]).
  split; [exact I|]. intros ? ? [-> _]. split; [now exists 10, [Some 20; Some 30]|].
  intros ? ? [-> _]. split; [exact I|]. intros ? ? [-> _]. split; [exact I|]. intros ? ? [_ ->].
  split; [exact I|]. intros l' ? Hp. assert (l' = [Some 20; Some 40; Some 30]) as ->.
  { destruct Hp as [[Hp _]|(q & z & Hp & -> & _)]; [discriminate|].
    change ([Some 40; Some 30] ++ [Some 20] = q ++ [z]) in Hp. apply app_inj_tail in Hp. now destruct Hp as [<- <-]. }
  split; [now exists 20, [Some 40; Some 30]|]. intros ? ? [-> _]. split; [exact I|]. now intros.
Qed.
Example C143_ex_assign : exists m1 l1 r1 m2 l2 r2 m3 l3,
  cl_run no_mem cl_new [OAdd (Some 7); OAdd (Some 8)] = Ok (m1, l1, r1) /\
  cl_run m1 cl_new ops_a = Ok (m2, l2, r2) /\ cl_assign 10 m2 l1 l2 = Ok (m3, l3) /\
  holds_in m3 l3 [8; 6; 7] [Some 20; Some 40; Some 30] /\
  holds_in m3 l2 [3; 5; 4] [Some 20; Some 40; Some 30].
Proof.
  do 8 eexists. split; [vm_compute; reflexivity|]. split; [vm_compute; reflexivity|].
  split; [vm_compute; reflexivity|].
  split; (split; [reflexivity|]; split; [reflexivity|]; split;
    [split; [repeat (apply NoDup_cons; [cbn; lia|]); apply NoDup_nil|cbn; intuition; split; reflexivity]
    |constructor; [eexists; split; reflexivity|]; constructor; [eexists; split; reflexivity|];
     constructor; [eexists; split; reflexivity|]; constructor]).
Qed.

(** A copy of a list that has elements is not a list with these elements. *)
Theorem C143_copy_refuted : exists (m : mem nat) (l : clist) (ns : list nat) (xs : list (option nat)),
  cl_run no_mem cl_new [OAdd (Some 10); OAdd (Some 20)] = Ok (m, l, [NNone; NNone]) /\
  holds_in m l ns xs /\ forall fuel, cl_copy (S fuel) m l = Undef.
Proof.
  do 2 eexists. exists [1; 0], [Some 20; Some 10]. split; [vm_compute; reflexivity|].
  match goal with |- ?A /\ _ => assert (Hh : A) end.
  { split; [reflexivity|]. split; [reflexivity|]. split.
    - split; [|cbn; intuition; split; reflexivity]. repeat (apply NoDup_cons; [cbn; lia|]). apply NoDup_nil.
    - constructor; [eexists; split; reflexivity|]. constructor; [eexists; split; reflexivity|]. constructor. }
  split; [exact Hh|]. intros fuel. apply (C143_copy _ _ _ _ fuel Hh).
Qed.
Print Assumptions C143_copy_refuted.

(** [Delete] given an element of another list: a list of one element deletes its own element and
    reports success. *)
Theorem C143_foreign_refuted :
  exists (m m' : mem nat) l l' own other, cl_run no_mem cl_new [OAdd (Some 10)] = Ok (m, l, [NNone]) /\
     head_of l = Ok own /\ (exists m0 l0 r0, cl_run m cl_new [OAdd (Some 20)] = Ok (m0, l0, r0) /\
       head_of l0 = Ok other /\ cl_delete_at m0 l other = Ok (m', l', true)) /\
     other <> own /\ live m' other /\ ~ live m' own.
Proof.
  do 6 eexists. split; [vm_compute; reflexivity|]. split; [reflexivity|]. split.
  - do 3 eexists. split; [vm_compute; reflexivity|]. split; [vm_compute; reflexivity|]. vm_compute; reflexivity.
  - split; [discriminate|]. split; [vm_compute; discriminate|]. vm_compute. tauto.
Qed.
Print Assumptions C143_foreign_refuted.

(** And a longer one keeps its elements but not their number, while the head of the other list is
    gone. *)
Theorem C143_foreign_size_refuted :
  exists (m m' : mem nat) l l' c,
    cl_run no_mem cl_new [OAdd (Some 10); OAdd (Some 11)] = Ok (m, l, [NNone; NNone]) /\
    (exists m0 l0 r0, cl_run m cl_new [OAdd (Some 20); OAdd (Some 21)] = Ok (m0, l0, r0) /\
       head_of l0 = Ok c /\ cl_delete_at m0 l c = Ok (m', l', true) /\ cl_step m' l0 OData = Undef) /\
    csize l' = Some 1 /\ chead l' = chead l /\ holds_in m' l [1; 0] [Some 11; Some 10].
Proof.
  do 5 eexists. split; [vm_compute; reflexivity|]. split.
  - do 3 eexists. split; [vm_compute; reflexivity|]. split; [vm_compute; reflexivity|].
    split; [vm_compute; reflexivity|]. vm_compute; reflexivity.
  - split; [reflexivity|]. split; [reflexivity|]. split; [reflexivity|]. split; [reflexivity|]. split.
    + split; [|cbn; intuition; split; reflexivity]. repeat (apply NoDup_cons; [cbn; lia|]). apply NoDup_nil.
    + constructor; [eexists; split; reflexivity|]. constructor; [eexists; split; reflexivity|]. constructor.
Qed.
Print Assumptions C143_foreign_size_refuted.
