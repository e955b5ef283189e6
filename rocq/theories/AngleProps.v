(** * C157: the edge of the greatest angle *)
From Coq Require Import List Arith Bool ZArith QArith Lia.
From Verif Require Import Common WideModel WideSpec HEdgeModel HEdgeSpec HEdgeProofs HFaceProps AngleModel AngleSpec AngleProofs.
Import ListNotations.
Local Open Scope nat_scope.

(** For every hull with its edges in order, every vertex and whatever its edges are marked and measured
    with, [findMaxAngle] ends; the edge it returns is a marked one of the vertex, no marked edge has a
    smaller cotangent, as an exact rational or infinity, and [minCot] is that of an edge which is neither
    smaller nor greater; it returns none only if no marked edge has a cotangent. *)
Theorem C157_max_angle marked cot opposite turn h f v fuel : whole h f -> length (f v) <= fuel ->
  (forall e, In e (f v) -> fits (cot e)) ->
  (forall e, In e (f v) -> marked e = true -> cot e = (0, 0)%Z -> opposite e = true) ->
  exists r, find_max_angle marked cot opposite turn fuel h v = Ok r /\
    match r with
    | None => forall e, In e (f v) -> marked e = true -> cot e = (0, 0)%Z
    | Some (m, b) => In m (f v) /\ marked m = true /\ cot m <> (0, 0)%Z /\
        (forall e, In e (f v) -> marked e = true -> cot e <> (0, 0)%Z -> ~ elt (value (cot e)) (value (cot m))) /\
        exists e, In e (f v) /\ rat64_new (fst (cot e)) (snd (cot e)) = Ok b /\
          ~ elt (value (cot e)) (value (cot m)) /\ ~ elt (value (cot m)) (value (cot e))
    end.
Proof.
  intros W hl F O. assert (NP : forall e, nanp cot e <-> cot e = (0, 0)%Z).
  { intros e. unfold nanp. destruct (cot e) as (n, d). cbn [fst snd]. split; [intros (-> & ->); reflexivity|intros q; injection q; auto]. }
  pose proof W as (c1 & c2 & c3 & _). specialize (c2 v). unfold find_max_angle. destruct (v_edges h v) as [first|].
  - destruct (in_split _ _ c2) as (l1 & l2 & hs). pose proof (c1 v) as C. pose proof (c3 v) as ND. rewrite hs in C, ND. rewrite circle_rot in C.
    assert (M : forall x, In x (first :: l2 ++ l1) <-> In x (f v)) by (intros x; rewrite hs; cbn [In]; rewrite !in_app_iff; cbn [In]; tauto).
    destruct (angle_ok marked cot opposite turn h first (l2 ++ l1) fuel first [] None) as (r & e & I).
    + intros x [].
    + exact C.
    + intros x hx. apply F. now apply M.
    + intros x hx hm hn. apply O; [now apply M|exact hm|now apply NP].
    + apply NoDup_remove_2 in ND. intros z. apply ND. apply in_app_iff in z. apply in_app_iff. tauto.
    + rewrite hs, app_length in hl. cbn [length] in hl. rewrite app_length. lia.
    + exists r. split; [exact e|]. cbn [app] in I. destruct r as [(m, b)|]; cbn [angle_inv] in I.
      * destruct I as (i1 & i2 & i3 & b0 & i4 & i5 & i6 & i7 & i8 & i9). split; [now apply M|]. split; [exact i2|].
        split; [intros z; apply i3; now apply NP|]. split.
        -- intros x hx hm hn. eapply elt_neg; [|exact i8]. apply i9; [now apply M|exact hm|]. intros z. apply hn. now apply NP.
        -- exists b0. split; [now apply M|]. split; [exact i7|]. split; [exact i8|]. now apply i9.
      * intros x hx hm. apply NP. apply I; [now apply M|exact hm].
  - exists None. split; [reflexivity|]. intros e he. rewrite c2 in he. destruct he.
Qed.
Print Assumptions C157_max_angle.

(** Of 1/2 and minus infinity the second is smaller; without a mark on it, the first is taken; and of
    two equal ones the orientation decides. *)
Definition C157_cot (e : nat) : Z * Z := match e with 0 => (1, 2)%Z | 5 => (-3, 0)%Z | 1 => (-4, 6)%Z | _ => (2, -3)%Z end.
Example C157_triangle :
  option_map fst (match find_max_angle (fun _ => true) C157_cot (fun _ => true) (fun _ _ => true) 2 C155_triangle 0 with Ok r => r | _ => None end) = Some 5 /\
  option_map fst (match find_max_angle (fun e => e =? 0) C157_cot (fun _ => true) (fun _ _ => true) 2 C155_triangle 0 with Ok r => r | _ => None end) = Some 0 /\
  option_map fst (match find_max_angle (fun _ => true) C157_cot (fun _ => true) (fun _ _ => true) 2 C155_triangle 1 with Ok r => r | _ => None end) = Some 1 /\
  option_map fst (match find_max_angle (fun _ => true) C157_cot (fun _ => true) (fun _ _ => false) 2 C155_triangle 1 with Ok r => r | _ => None end) = Some 2 /\
  forall e, fits (C157_cot e) /\ C157_cot e <> (0, 0)%Z.
Proof.
  split; [vm_compute; reflexivity|]. split; [vm_compute; reflexivity|]. split; [vm_compute; reflexivity|]. split; [vm_compute; reflexivity|].
  intros [|[|[|[|[|[|e]]]]]]; (split; [split; reflexivity|discriminate]).
Qed.
