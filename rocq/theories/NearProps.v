(** * C152: every face of the convex hull is near one vertex *)
From Coq Require Import List Arith Bool Lia.
From Verif Require Import Common NearModel NearSpec NearProofs.
Import ListNotations.

(** After any sequence of new faces and of vertices taking over the faces of others, each vertex shows
    the faces made at it and those taken over, in order, each of them names that vertex as its own, and
    nothing fails.  The loop needs no more steps than there are requests. *)
Theorem C152_run os fuel : all_allowed os (fun _ => []) -> length os <= fuel ->
  exists s, nrun fuel near_new os = Ok s /\ shows s (all_done os (fun _ => [])).
Proof.
  intros h hl. destruct (run_ok os fuel near_new (fun _ => []) [] ninv_new h) as (s & e & N).
  - intros v x [].
  - exact hl.
  - exists s. split; [exact e|]. now apply ninv_shows.
Qed.
Print Assumptions C152_run.

(** No face is lost and none is near two vertices. *)
Theorem C152_each os x a : all_allowed os (fun _ => []) -> In (NInit x a) os ->
  exists s v, nrun (length os) near_new os = Ok s /\ nearby s x = Some v /\
    (exists n, In x (follow n s (first_f s v))) /\
    (forall w n, In x (follow n s (first_f s w)) -> w = v).
Proof.
  intros h hx. destruct (run_ok os (length os) near_new (fun _ => []) [] ninv_new h) as (s & e & N);
    [intros v y []|apply le_n|]. destruct (done_makes os (fun _ => []) x a hx) as (v & hv). exists s, v.
  pose proof (ninv_shows _ _ N v) as (s1 & _ & s3). split; [exact e|]. split; [now apply s3|]. split.
  - eexists. rewrite s1 by apply le_n. exact hv.
  - intros w n hw. apply (linked_sub s _ _ n (proj1 N w)) in hw. exact (ninv_one _ _ _ _ _ N hw hv).
Qed.
Print Assumptions C152_each.

(** A vertex that takes over its own faces: the loop never ends. *)
Theorem C152_self_refuted : exists os v, all_allowed os (fun _ => []) /\
  forall fuel, nrun fuel near_new (os ++ [NReceive v v]) = NoFuel.
Proof.
  exists [NInit 0 0; NInit 1 0], 0. split.
  - cbn [all_allowed allowed does]. split; [intros v []|]. split; [|exact I]. intros v. destruct (v =? 0); [|intros []].
    intros [h|[]]. discriminate h.
  - intros fuel. cbn [app nrun nstep obind]. unfold receive.
    match goal with |- obind (obind (retarget _ ?s _ _ _) _) _ = _ => set (s2 := s) end.
    change (first_f s2 0) with (Some 0). rewrite (cycle_never fuel s2 0 1); reflexivity.
Qed.
Print Assumptions C152_self_refuted.

(** Three faces at two vertices, one taking over, another face. *)
Definition C152_requests : list nop := [NInit 10 0; NInit 11 1; NInit 12 1; NReceive 0 1; NInit 13 1; NReceive 1 0].
Example C152_requests_allowed : all_allowed C152_requests (fun _ => []).
Proof.
  cbn [C152_requests all_allowed allowed does].
  repeat (split; [try discriminate; intros [|[|v]]; cbn; intuition discriminate|]). exact I.
Qed.
Example C152_requests_show : all_done C152_requests (fun _ => []) 1 = [13; 10; 11; 12].
Proof. reflexivity. Qed.
