(** * C150: the pools of the convex hull give out distinct objects and use their memory again *)
From Coq Require Import List Arith Bool Lia.
From Verif Require Import Common FreeModel FreeSpec FreeProofs.
Import ListNotations.

(** A program that frees and writes only objects it holds, and asks for arrays of at least one place,
    gets from the pool, whatever it asks and in whatever order, objects that it does not hold already:
    the objects it holds are distinct places of the arrays of the pool. *)
Theorem C150_run g : fall g [] ->
  exists p t held, frun pool_new g = Ok (p, t) /\ fgives t [] held /\ NoDup held /\
    forall o, In o held -> place_of p o.
Proof.
  intros h. destruct (run_ok g pool_new [] finv_new h) as (p & t & held & e & d & H & _).
  exists p, t, held. split; [exact e|]. split; [exact d|]. apply finv_held, H.
Qed.
Print Assumptions C150_run.

(** The pool writes no object that the program holds: the member which the pool uses for the free
    ones keeps what the program wrote into it, until it frees the object or resets the pool. *)
Theorem C150_kept g : fall g [] ->
  exists p t, frun pool_new g = Ok (p, t) /\
    forall t1 o v r t2, t = t1 ++ (FWrite o v, r) :: t2 -> Forall (fun x => leaves (fst x) o) t2 -> nexts p o = Some v.
Proof.
  intros h. destruct (run_ok g pool_new [] finv_new h) as (p & t & held & e & _ & _ & _ & W).
  exists p, t. split; [exact e|exact W].
Qed.
Print Assumptions C150_kept.

(** The pool takes a new array, of the size last asked for, only when the program holds every place of
    the arrays there are; otherwise a new object is a place of those arrays. *)
Theorem C150_full g : fall g [] ->
  exists p t held p' o, frun pool_new g = Ok (p, t) /\ fgives t [] held /\
    new_object p = Ok (p', o) /\ ~ In o held /\ place_of p' o /\
    (parrays p' = parrays p \/
     (forall x, place_of p x -> In x held) /\ exists a, parrays p' = parrays p ++ [a] /\ psize a = array_size p).
Proof.
  intros h. destruct (run_ok g pool_new [] finv_new h) as (p & t & held & e & d & H & _).
  destruct (new_ok p held H) as (p' & o & e1 & H1 & n1 & _ & L). exists p, t, held, p', o.
  split; [exact e|]. split; [exact d|]. split; [exact e1|]. split; [exact n1|].
  split; [apply (finv_held _ _ H1); now left|]. destruct L as [L|(L & G)]; [now left|]. right. split; [exact G|].
  eexists. split; [exact L|reflexivity].
Qed.
Print Assumptions C150_full.

(** An array of no places: the pool answers with a place outside it. *)
Theorem C150_zero_refuted : exists n, frun pool_new (FAsk (FSize n) (fun _ => FAsk FNew (fun _ => FDone))) = Undef.
Proof. exists 0. reflexivity. Qed.
Print Assumptions C150_zero_refuted.

(** An object freed twice is given out twice, once the first holder has written its [next]: two holders
    of one object. *)
Definition C150_twice : fprog :=
  FAsk (FSize 4) (fun _ => FAsk FNew (fun r =>
    match r with
    | Some o => FAsk (FFree o) (fun _ => FAsk (FFree o) (fun _ => FAsk FNew (fun _ =>
                      FAsk (FWrite o None) (fun _ => FAsk FNew (fun _ => FDone)))))
    | None => FDone
    end)).
Theorem C150_twice_refuted : exists g o p t, frun pool_new g = Ok (p, t) /\
  exists t', t = t' ++ [(FNew, Some o); (FWrite o None, None); (FNew, Some o)].
Proof.
  exists C150_twice, (0, 0). eexists _, _. split; [vm_compute; reflexivity|].
  exists [(FSize 4, None); (FNew, Some (0, 0)); (FFree (0, 0), None); (FFree (0, 0), None)]. reflexivity.
Qed.
Print Assumptions C150_twice_refuted.

(** A program that meets the conditions: arrays of two places, three objects, one of them written and
    one freed and taken again, a reset, two more. *)
Definition C150_program : fprog :=
  FAsk (FSize 2) (fun _ => FAsk FNew (fun r1 => FAsk FNew (fun _ => FAsk FNew (fun r3 =>
    match r1, r3 with
    | Some o1, Some o3 =>
        FAsk (FWrite o3 (Some o1)) (fun _ => FAsk (FFree o1) (fun _ => FAsk FNew (fun _ =>
          FAsk FReset (fun _ => FAsk FNew (fun _ => FAsk FNew (fun _ => FAsk FNew (fun _ => FDone)))))))
    | _, _ => FDone
    end)))).
Example C150_program_allowed : fall C150_program [].
Proof.
  unfold C150_program. cbn [fall fallowed]. split; [lia|]. intros r0 h0 (_ & ->). split; [exact I|].
  intros r1 h1 (o1 & -> & _ & ->). split; [exact I|]. intros r2 h2 (o2 & -> & n2 & ->). split; [exact I|].
  intros r3 h3 (o3 & -> & n3 & ->). cbn [fall fallowed]. split; [now left|]. intros r4 h4 (_ & ->).
  split; [right; right; now left|]. intros r5 h5 _. split; [exact I|]. intros r6 h6 _. split; [exact I|].
  intros r7 h7 _. split; [exact I|]. intros r8 h8 _. split; [exact I|]. intros r9 h9 _. split; [exact I|].
  intros r10 h10 _. exact I.
Qed.
Example C150_program_gives : match frun pool_new C150_program with
  | Ok (p, t) => map snd t = [None; Some (0, 0); Some (0, 1); Some (1, 0); None; None; Some (0, 0); None;
                              Some (1, 0); Some (1, 1); Some (0, 0)] /\ length (parrays p) = 2
  | _ => False
  end.
Proof. vm_compute. split; reflexivity. Qed.
