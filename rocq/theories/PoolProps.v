(** * C148: the memory of the array of the bundled convex hull *)
From Coq Require Import List Arith Bool Lia.
From Verif Require Import Common PoolModel PoolSpec PoolProofs.
Import ListNotations.

(** A program that uses any number of arrays within their bounds, however it grows, shrinks, clears
    and assigns them (to themselves as well) and lends them memory, never does anything undefined;
    each array is the sequence it should be, whatever happens to the others; and when all have been
    destroyed every block of the allocator's has been given back and no block of the caller's. *)
Theorem C148_run {T : Type} (n : nat) (ops : list (pop_ T)) : pall ops (repeat [] n) ->
  exists w rs ls m, pool_run (pool_start n) ops = Ok (w, rs) /\ pgives ops (repeat [] n) rs ls /\ reads w ls /\
    clear_all (fst w) (snd w) = Ok m /\ all_freed m.
Proof.
  intros al. destruct (run_ok ops _ _ (start_ok n) al) as (w & rs & ls & e & g & I & _).
  destruct w as [m0 as_]. destruct (clear_all_ok as_ m0 ls I) as (m & c & f & _).
  exists (m0, as_), rs, ls, m. split; [exact e|]. split; [exact g|]. split; [apply inv_reads; exact I|]. auto.
Qed.
Print Assumptions C148_run.

(** If nothing is assigned, every element constructed is destroyed, once. *)
Theorem C148_destroyed {T : Type} (n : nat) (ops : list (pop_ T)) : pall ops (repeat [] n) ->
  (forall o, In o ops -> ~ assigns o) ->
  exists w rs m, pool_run (pool_start n) ops = Ok (w, rs) /\ clear_all (fst w) (snd w) = Ok m /\ made m = gone m.
Proof.
  intros al F. apply Forall_forall in F. destruct (run_ok ops _ _ (start_ok n) al) as (w & rs & ls & e & g & I & E).
  specialize (E F (start_even n)). destruct w as [m0 as_]. destruct (clear_all_ok as_ m0 ls I) as (m & c & f & q).
  exists (m0, as_), rs, m. split; [exact e|]. split; [exact c|]. unfold even_ in E. cbn [fst] in E. lia.
Qed.
Print Assumptions C148_destroyed.

(** [push_back] of an element of the array itself appends that element while there is room, and is
    undefined whenever there is none. *)
Theorem C148_own {T : Type} (n : nat) (ops : list (pop_ T)) w rs k a i : pall ops (repeat [] n) ->
  pool_run (pool_start n) ops = Ok (w, rs) -> nth_error (snd w) k = Some a -> i < osize a ->
  (osize a < ocap a -> exists x, pool_step w (PGet k i) = Ok (w, PVal x) /\ oa_push_own (fst w) a i = oa_push (fst w) a x) /\
  (osize a = ocap a -> oa_push_own (fst w) a i = Undef).
Proof.
  intros al e ha hi. destruct (run_ok ops _ _ (start_ok n) al) as (w' & rs' & ls & e' & _ & I & _).
  rewrite e in e'. injection e' as <- <-. pose proof (inv_reads w ls I) as (_ & rd).
  destruct (nth_error ls k) as [l|] eqn:hl.
  2:{ exfalso. apply nth_error_None in hl. apply nth_lt in ha. destruct I as (q & _). lia. }
  assert (H : holds (fst w) a l) by (destruct I as (_ & q & _); eapply q; eauto).
  destruct (lt_nth l i) as [x hx]; [destruct H as (q & _); lia|].
  destruct (own_ok _ _ _ _ _ H hx) as (o1 & o2). split; [|exact o2].
  intros hc. exists x. split; [exact (proj2 (rd k l hl) i x hx)|exact (o1 hc)].
Qed.
Print Assumptions C148_own.

(** ** Examples *)
Definition prog : list (pop_ nat) :=
  [PPush 0 5; PPush 0 6; PPush 0 7; PBuffer 1 [1; 2] 0; PPush 1 3; PAssign 1 0 9; PPop 0; PResize 0 4 8; PAssign 0 0 9;
   PGet 0 3; PSet 1 1 4; PGet 1 1; PReserve 2 5; PClear 1; PSize 0].
Example C148_ex_allowed : pall prog (repeat [] 3).
Proof.
  unfold prog. cbn [pall repeat].
  assert (B : forall (ls : list (list nat)) k l ls', becomes ls k l ls' -> length ls = 3 -> k < 3 ->
                ls' = firstn k ls ++ l :: skipn (S k) ls).
  { intros ls k l ls' (h1 & h2 & h3) hl hk.
    destruct ls as [|a [|b [|c [|? ?]]]]; try discriminate hl.
    destruct ls' as [|a' [|b' [|c' [|? ?]]]]; try discriminate h1.
    destruct k as [|[|[|k]]]; try lia; cbn in h2; injection h2 as <-;
      [pose proof (h3 1) as u; pose proof (h3 2) as v | pose proof (h3 0) as u; pose proof (h3 2) as v
      | pose proof (h3 0) as u; pose proof (h3 1) as v]; cbn in u, v;
      specialize (u ltac:(lia)); specialize (v ltac:(lia)); injection u as <-; injection v as <-; reflexivity. }
  Ltac upto B :=
    match goal with
    | h : becomes _ _ _ _ |- _ => apply B in h; [|reflexivity|lia]; cbn in h; subst
    | h : nth_error _ _ = Some _ |- _ => cbn in h; injection h as h; subst
    end.
  Ltac next B := split; [cbn; first [lia | (eexists; split; [reflexivity|]; first [discriminate | cbn; lia])] |];
                 intros ? ?; cbn [pdoes].
  next B. intros (_ & l & hl & h). upto B. upto B.
  next B. intros (_ & l & hl & h). upto B. upto B.
  next B. intros (_ & l & hl & h). upto B. upto B.
  next B. intros (_ & h). upto B.
  next B. intros (_ & l & hl & h). upto B. upto B.
  next B. intros (_ & l & hl & h). upto B. upto B.
  next B. intros (_ & l & v & hl & h). cbn in hl. injection hl as hl.
  change [5; 6; 7] with ([5; 6] ++ [7]) in hl. apply app_inj_tail in hl. destruct hl as (<- & <-). upto B.
  next B. intros (_ & l & hl & h). upto B. upto B.
  next B. intros (_ & l & hl & h). upto B. upto B.
  next B. intros (-> & _).
  next B. intros (_ & p & x & q & hl & hp & h). destruct p as [|u [|v p]]; try discriminate hp.
  cbn in hl. injection hl as <- <- <-. upto B.
  next B. intros (-> & _).
  next B. intros (_ & ->).
  next B. intros (_ & h). upto B.
  next B. auto.
Qed.
Example C148_ex_run : exists w, pool_run (pool_start 3) prog =
  Ok (w, [PUnit; PUnit; PUnit; PUnit; PUnit; PUnit; PUnit; PUnit; PUnit; PVal 8; PUnit; PVal 4; PUnit; PUnit; PNum 4]).
Proof. vm_compute. eexists. reflexivity. Qed.

(** Three elements in four places: a fourth may be one of them.  Two in a block of the caller's of
    two places: growth leaves the block to the caller, empty. *)
Example C148_ex_own : exists w rs a m' a',
  pool_run (pool_start 1) [PPush 0 5; PPush 0 6; PPush 0 7] = Ok (w, rs) /\ nth_error (snd w) 0 = Some a /\
  osize a = 3 /\ ocap a = 4 /\ oa_push_own (fst w) a 1 = Ok (m', a') /\ load m' (ptr a') 3 = Ok 6.
Proof.
  vm_compute. eexists _, _, _, _, _. split; [reflexivity|]. split; [reflexivity|]. split; [reflexivity|].
  split; [reflexivity|]. split; reflexivity.
Qed.
Example C148_ex_buffer : exists w rs m,
  pool_run (pool_start 1) [PBuffer 0 [1; 2] 0; PPush 0 3; PGet 0 1; PSize 0] = Ok (w, rs) /\
  rs = [PUnit; PUnit; PVal 2; PNum 3] /\ clear_all (fst w) (snd w) = Ok m /\
  blocks m = [Blk true (Some [None; None]); Blk false None] /\ made m = 5 /\ gone m = 5.
Proof.
  vm_compute. eexists _, _, _. split; [reflexivity|]. split; [reflexivity|]. split; [reflexivity|].
  split; [reflexivity|]. split; reflexivity.
Qed.

(** ** What does not hold *)

(** [a.push_back(a[0])], within bounds, reads an element of the memory just given back. *)
Theorem C148_own_refuted : exists (ops : list (pop_ nat)) w rs a,
  pool_run (pool_start 1) ops = Ok (w, rs) /\ nth_error (snd w) 0 = Some a /\
  pool_step w (PGet 0 0) = Ok (w, PVal 5) /\ oa_push_own (fst w) a 0 = Undef.
Proof.
  exists [PPush 0 5]. vm_compute. eexists _, _, _. split; [reflexivity|]. split; [reflexivity|]. split; reflexivity.
Qed.
Print Assumptions C148_own_refuted.

(** Assignment constructs its elements where others have been constructed, which are never
    destroyed: an element that owns memory loses it. *)
Theorem C148_assign_refuted : exists (ops : list (pop_ nat)) w rs m,
  pall ops (repeat [] 2) /\ pool_run (pool_start 2) ops = Ok (w, rs) /\ clear_all (fst w) (snd w) = Ok m /\
  gone m < made m.
Proof.
  exists [PPush 0 5; PAssign 1 0 0]. eexists _, _, _. split.
  - cbn [pall]. split; [cbn; lia|]. intros r ls (_ & l & _ & (h & _)). cbn in h. split; [cbn; lia|]. auto.
  - split; [vm_compute; reflexivity|]. split; [vm_compute; reflexivity|]. cbn. lia.
Qed.
Print Assumptions C148_assign_refuted.

(** Popping an empty array is undefined. *)
Example C148_ex_pop : pool_run (pool_start 1) [PPush 0 5; PPop 0; PPop 0] = Undef.
Proof. reflexivity. Qed.
