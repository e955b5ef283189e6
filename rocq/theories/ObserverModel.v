(** * Model of NodesObserver and of the observers of NodesVariables

    Sources: trajopt_ifopt/src/variable_sets/nodes_observer.cpp, nodes_variables.cpp 79-99.

    An observer is a number; its updateNodes() sees the variable set and acts on a world.  It is assumed not to change the
    set or its list of observers while being called.  Of a shared pointer only matters whether the object already belongs to
    one: shared_from_this() throws bad_weak_ptr otherwise. *)
From Coq Require Import List ZArith Bool Arith.
From Verif Require Import Num IfoptModel NodesModel.
Import ListNotations.

Section Observer.
  Context {T : Type} {NT : Num T} {W : Type}.
  (** NodesVariables with observers_ *)
  Record subject := { su_nodes : nodes T; su_observers : list nat }.
  Variable update_nodes : nat -> nodes T -> W -> W.
  (** addObserver, nodes_variables.cpp 99 *)
  Definition add_observer (s : subject) (o : nat) : subject := {| su_nodes := su_nodes s; su_observers := su_observers s ++ [o] |}.
  (** updateObservers, 93-97 *)
  Definition update_observers (s : subject) (w : W) : W := fold_left (fun w o => update_nodes o (su_nodes s) w) (su_observers s) w.
  (** setVariables, 79-88 *)
  Definition set_variables (x : list T) (s : subject) (w : W) : res (subject * W) :=
    rbind (nodes_set x (su_nodes s)) (fun n =>
      let s := {| su_nodes := n; su_observers := su_observers s |} in Val (s, update_observers s w)).
  (** the constructor of NodesObserver, nodes_observer.cpp 35-42: [alive]: the weak pointer still points to the subject;
      [owned]: a shared pointer owns the observer *)
  Definition observer_constructor (owned alive : bool) (s : subject) (o : nat) : res subject :=
    if alive then if owned then Val (add_observer s o) else Throws else Throws.
  (** std::make_shared<O>(subject) and std::shared_ptr<O>(new O(subject)): the shared pointer takes the object over once the
      constructors are through *)
  Definition make_observer (alive : bool) (s : subject) (o : nat) : res subject := observer_constructor false alive s o.
End Observer.
Arguments subject : clear implicits.
