(** * C142: the array of the convex decomposition *)
From Coq Require Import List Arith Bool Lia.
From Verif Require Import Common SArrayModel SArraySpec SArrayProofs.
Import ListNotations.

(** Whatever is done with a new array, as long as no operation goes out of bounds or looks at
    elements that were never written, it behaves as a sequence: every operation returns and does
    what it should, through every change between the place in the object and the heap. *)
Theorem C142_run {T : Type} (eqb : T -> T -> bool) N size_max ops :
  0 < N -> all_allowed eqb N ops [] ->
  exists s rs l, sa_run eqb N size_max (sa_new N) ops = Ok (s, rs) /\
                 gives eqb ops [] rs l /\ elements N s l.
Proof.
  intros HN Ha.
  destruct (run_holds eqb N size_max HN ops (sa_new N) [] (new_holds N) Ha) as (s & rs & l & E & H & G).
  exists s, rs, l. split; [exact E|]. split; [exact G|]. now apply holds_elements.
Qed.
Print Assumptions C142_run.

(** Assignment and copying give an array with the elements of the other, which goes on to behave
    as a sequence, wherever the two keep their elements. *)
Theorem C142_assign {T : Type} (eqb : T -> T -> bool) N size_max ops1 ops2 :
  0 < N -> all_allowed eqb N ops1 [] -> all_allowed eqb N ops2 [] ->
  exists s1 rs1 s2 rs2 l2 s3 s4,
    sa_run eqb N size_max (sa_new N) ops1 = Ok (s1, rs1) /\
    sa_run eqb N size_max (sa_new N) ops2 = Ok (s2, rs2) /\
    gives eqb ops2 [] rs2 l2 /\
    sa_assign N s1 s2 = Ok s3 /\ elements N s3 l2 /\
    sa_copy N s2 = Ok s4 /\ elements N s4 l2 /\
    forall ops, all_allowed eqb N ops l2 ->
      (exists s rs l, sa_run eqb N size_max s3 ops = Ok (s, rs) /\ gives eqb ops l2 rs l /\ elements N s l) /\
      (exists s rs l, sa_run eqb N size_max s4 ops = Ok (s, rs) /\ gives eqb ops l2 rs l /\ elements N s l).
Proof.
  intros HN H1 H2.
  destruct (run_holds eqb N size_max HN ops1 _ [] (new_holds N) H1) as (s1 & rs1 & l1 & E1 & G1 & _).
  destruct (run_holds eqb N size_max HN ops2 _ [] (new_holds N) H2) as (s2 & rs2 & l2 & E2 & G2 & V2).
  destruct (assign_holds N HN s1 l1 s2 l2 G1 G2) as (s3 & E3 & G3).
  destruct (assign_holds N HN _ _ s2 l2 (new_holds N) G2) as (s4 & E4 & G4).
  exists s1, rs1, s2, rs2, l2, s3, s4.
  split; [exact E1|]. split; [exact E2|]. split; [exact V2|]. split; [exact E3|].
  split; [now apply holds_elements|]. split; [exact E4|]. split; [now apply holds_elements|].
  intros ops Ha. split.
  - destruct (run_holds eqb N size_max HN ops s3 l2 G3 Ha) as (s & rs & l & E & H & G).
    exists s, rs, l. split; [exact E|]. split; [exact G|]. now apply holds_elements.
  - destruct (run_holds eqb N size_max HN ops s4 l2 G4 Ha) as (s & rs & l & E & H & G).
    exists s, rs, l. split; [exact E|]. split; [exact G|]. now apply holds_elements.
Qed.
Print Assumptions C142_assign.

(** [Clear] forgets everything the array was used for: the heap block is gone, and what follows
    is what would follow with a new array. *)
Theorem C142_clear {T : Type} (eqb : T -> T -> bool) N size_max ops more :
  0 < N -> all_allowed eqb N ops [] -> all_allowed eqb N more [] ->
  exists s rs s' rs' l, sa_run eqb N size_max (sa_new N) ops = Ok (s, rs) /\
    heap (sa_clear N s) = None /\
    sa_run eqb N size_max (sa_clear N s) more = Ok (s', rs') /\
    gives eqb more [] rs' l /\ elements N s' l.
Proof.
  intros HN Ha Hm.
  destruct (run_holds eqb N size_max HN ops _ [] (new_holds N) Ha) as (s & rs & l & E & H & _).
  destruct (run_holds eqb N size_max HN more _ [] (clear_holds N s l H) Hm) as (s' & rs' & l' & E' & H' & G).
  exists s, rs, s', rs', l'. split; [exact E|]. split; [reflexivity|]. split; [exact E'|].
  split; [exact G|]. now apply holds_elements.
Qed.
Print Assumptions C142_clear.

(** ** Examples: two places in the object *)
Definition ex_ops : list (aop nat) :=
  [APush 5; APush 6; APushOwn 0; AInsert 6; AInsert 8; AErase 6; AFind 8; AGet 1; ASize; APop;
   ASet 0 1; AResize 1; AGet 0].

Example C142_ex_run :
  exists s, sa_run Nat.eqb 2 1000 (sa_new 2) ex_ops =
  Ok (s, [RUnit; RUnit; RUnit; RBool false; RBool true; RBool true; RFound true 2; RVal 5; RSize 3;
          RUnit; RUnit; RUnit; RVal 1]).
Proof. eexists. vm_compute. reflexivity. Qed.

Example C142_ex_allowed : all_allowed Nat.eqb 2 [APush 5; APush 6; APushOwn 0; AFind 6] [].
Proof.
  cbn. split; [exact I|]. intros r l [-> _]. split; [exact I|]. intros r2 l2 [-> _]. cbn.
  split; [split; [now exists 5|lia]|]. intros r3 l3 [_ H]. rewrite (H 5 eq_refl). cbn.
  split; [intros c [<-|[<-|[<-|[]]]]; discriminate|exact (fun _ _ _ => I)].
Qed.

Example C142_ex_assign :
  exists s rs s', sa_run Nat.eqb 2 1000 (sa_new 2) [APush 5; APush 6; APush 7] = Ok (s, rs) /\
  sa_copy 2 s = Ok s' /\ elements 2 s' [Some 5; Some 6; Some 7].
Proof.
  do 3 eexists. split; [vm_compute; reflexivity|]. split; [vm_compute; reflexivity|].
  split; [reflexivity|]. eexists. split; vm_compute; reflexivity.
Qed.

(** ** What does not hold *)

(** [a.PushBack(a[0])] on a full array that is on the heap (128 elements with the default
    [N = 64]) reads the deleted block. *)
Theorem C142_own_refuted :
  exists (l : list nat) s rs,
    sa_run Nat.eqb 64 1000 (sa_new 64) (map APush l) = Ok (s, rs) /\
    elements 64 s (map Some l) /\ sa_get 64 s 0 = Ok 1 /\ sa_push_own 64 s 0 = Undef.
Proof.
  exists (seq 1 128). do 2 eexists. split; [vm_compute; reflexivity|].
  split; [split; [reflexivity|eexists; split; vm_compute; reflexivity]|].
  split; vm_compute; reflexivity.
Qed.
Print Assumptions C142_own_refuted.

(** [PopBack] of an empty array leaves the greatest size there is; the next [PushBack] writes
    out of bounds. *)
Theorem C142_pop_refuted size_max :
  64 < size_max ->
  exists (s : sarray nat), s = sa_pop size_max (sa_new 64) /\ size s = size_max /\ sa_push 64 s 1 = Undef.
Proof.
  intros Hm. eexists. split; [reflexivity|]. split; [reflexivity|].
  unfold sa_push, sa_grow, sa_pop, set_size. cbn [size sa_new maxsize].
  replace (size_max =? 64) with false by (symmetry; apply Nat.eqb_neq; lia). cbn [obind].
  unfold sa_put, data, write. cbn [maxsize inl size heap obind]. rewrite Nat.eqb_refl. cbn [obind].
  change (length (inl (@sa_new nat 64))) with 64.
  replace (size_max <? 64) with false by (symmetry; apply Nat.ltb_ge; lia). reflexivity.
Qed.
Print Assumptions C142_pop_refuted.

(** [Resize] to more elements does not set them: what was there before is there again, or
    nothing at all. *)
Theorem C142_resize_refuted :
  exists s rs, sa_run Nat.eqb 64 1000 (sa_new 64) [APush 7; APop; AResize 1; AGet 0] = Ok (s, rs) /\
    nth_error rs 3 = Some (RVal 7) /\
    sa_run Nat.eqb 64 1000 (sa_new 64) [AResize 1; AGet 0] = Undef.
Proof. do 2 eexists. split; [vm_compute; reflexivity|]. split; vm_compute; reflexivity. Qed.
Print Assumptions C142_resize_refuted.
