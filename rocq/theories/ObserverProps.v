(** * C125: observers of a variable set *)
From Coq Require Import List ZArith Bool Arith QArith_base.
From Verif Require Import Num IfoptModel NodesModel ObserverModel.
Import ListNotations.

(** what the observers see: who was called, with which values of the set and of its variables *)
Definition record_call {T : Type} (o : nat) (n : nodes T) (w : list (nat * list T * list (list T))) :=
  w ++ [(o, ns_values n, map v_vals (all_vars n))].
(** Each change reaches each registered observer once, in the order of registration, after all variables have their new values. *)
Theorem C125_notified : forall (T : Type) (NT : Num T) (n : nodes T) os x n' w, nodes_set x n = Val n' ->
  let s := fold_left add_observer os {| su_nodes := n; su_observers := [] |} in
  exists s', set_variables record_call x s w = Val (s', w ++ map (fun o => (o, x, map v_vals (all_vars n'))) os) /\
    su_nodes s' = n' /\ su_observers s' = os /\ ns_values n' = x.
Proof.
  intros T NT n os x n' w E s.
  assert (K : forall os l, fold_left (add_observer (T := T)) os {| su_nodes := n; su_observers := l |} = {| su_nodes := n; su_observers := l ++ os |}).
  { clear. induction os as [|o os IH]; intros l; cbn [fold_left]; [rewrite app_nil_r; reflexivity|]. unfold add_observer at 2. cbn [su_nodes su_observers]. rewrite IH, <- app_assoc. reflexivity. }
  unfold s. rewrite K. cbn [app]. unfold set_variables. cbn [su_nodes su_observers]. rewrite E. cbn [rbind].
  assert (X : ns_values n' = x). { unfold nodes_set in E. destruct (nodes_set_loop _ _); cbn [rbind] in E; try discriminate. injection E as <-. reflexivity. }
  exists {| su_nodes := n'; su_observers := os |}. split; [|split; [reflexivity|split; [reflexivity|exact X]]].
  f_equal. f_equal. unfold update_observers. cbn [su_nodes su_observers]. clear s K. revert w. induction os as [|o os IH]; intros w; cbn [fold_left map]; [rewrite app_nil_r; reflexivity|].
  rewrite IH. unfold record_call. rewrite X, <- app_assoc. reflexivity.
Qed.
Print Assumptions C125_notified.

(** But the constructor registers through shared_from_this(), before any shared pointer owns the object: it always throws. *)
Theorem C125_construct : forall (T : Type) alive (s : subject T) o s', make_observer alive s o <> Val s'.
Proof. intros T [] s o s' E; discriminate. Qed.
Print Assumptions C125_construct.
Theorem C125_construct_refuted : exists (s : subject Q) o, make_observer true s o = Throws.
Proof. exists {| su_nodes := {| ns_nodes := []; ns_bounds := []; ns_dim := 0; ns_values := [] |}; su_observers := [] |}, 0%nat. reflexivity. Qed.
Print Assumptions C125_construct_refuted.

Example C125_example : exists n n', build (T := Q) [[AddScalar 0 1%Q {| b_lo := None; b_hi := None |}]; [AddScalar 1 2%Q {| b_lo := None; b_hi := Some 4%Q |}]] = Val n /\ nodes_set [5; 6]%Q n = Val n' /\
  map v_vals (all_vars n') = [[5]; [6]]%Q.
Proof. eexists. eexists. split; [reflexivity|]. split; reflexivity. Qed.
