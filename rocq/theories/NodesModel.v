(** * Model of the trajopt_ifopt variable sets: Var, Node, NodesVariables

    Sources: trajopt_ifopt/src/variable_sets/{var,node,nodes_variables}.cpp.

    Simplifications: variable names are natural numbers, the names of the elements of a variable are
    represented by their number; the hash of the values and the observers are left out (an observer is
    only notified); [Bad] is a failed assertion. *)
From Coq Require Import List ZArith Bool Arith.
From Verif Require Import Num IfoptModel.
Import ListNotations.

Section Nodes.
  Context {T : Type} {NT : Num T}.

  (** Var, var.h: identifier_, index_, values_, bounds_ *)
  Record var := { v_name : nat; v_index : nat; v_vals : list T; v_bnds : list (bnd T) }.
  Definition v_size (v : var) : nat := length (v_vals v).
  (** Var::Var (scalar), var.cpp 29-44 *)
  Definition var_scalar (index name : nat) (value : T) (b : bnd T) : res var :=
    rbind (closest_valid_point [b] [value]) (fun vals =>
      Val {| v_name := name; v_index := index; v_vals := vals; v_bnds := [b] |}).
  (** Var::Var (vector), var.cpp 46-72; [nnames] is names.size() *)
  Definition var_vector (index name nnames : nat) (values : list T) (bs : list (bnd T)) : res var :=
    if (nnames =? length bs)%nat then
      if (nnames =? length values)%nat then
        rbind (closest_valid_point bs values) (fun vals =>
          Val {| v_name := name; v_index := index; v_vals := vals; v_bnds := bs |})
      else Throws
    else Throws.
  (** Var::incrementIndex and Var::setVariables, var.cpp 82-88 *)
  Definition var_shift (d : nat) (v : var) : var :=
    {| v_name := v_name v; v_index := v_index v + d; v_vals := v_vals v; v_bnds := v_bnds v |}.
  Definition var_set (x : list T) (v : var) : res var :=
    if ((v_index v <? length x) && (0 <? v_size v) && (v_index v + (v_size v - 1) <? length x))%nat%bool
    then Val {| v_name := v_name v; v_index := v_index v;
                v_vals := firstn (v_size v) (skipn (v_index v) x); v_bnds := v_bnds v |}
    else Bad.

  (** Node, node.cpp: vars_, vars_by_name_ (name to position in vars_, the latest entry counts), length_ *)
  Record node := { nd_vars : list var; nd_names : list (nat * nat); nd_length : nat }.
  Definition node_new : node := {| nd_vars := []; nd_names := []; nd_length := 0 |}.
  Definition node_push (nd : node) (name n : nat) (v : var) : node :=
    {| nd_vars := nd_vars nd ++ [v]; nd_names := (name, length (nd_vars nd)) :: nd_names nd; nd_length := nd_length nd + n |}.
  (** Node::addVar, node.cpp 36-53 *)
  Inductive add := AddScalar (name : nat) (value : T) (b : bnd T)
                 | AddVector (name nnames : nat) (values : list T) (bs : list (bnd T)).
  Definition node_add (nd : node) (a : add) : res node :=
    match a with
    | AddScalar name value b => rbind (var_scalar (nd_length nd) name value b) (fun v => Val (node_push nd name 1 v))
    | AddVector name nnames values bs =>
        rbind (var_vector (nd_length nd) name nnames values bs) (fun v => Val (node_push nd name nnames v))
    end.
  Fixpoint node_adds (nd : node) (l : list add) : res node :=
    match l with [] => Val nd | a :: l => rbind (node_add nd a) (fun nd => node_adds nd l) end.
  (** Node::getVar, 55: unordered_map::at *)
  Definition node_get (nd : node) (name : nat) : res var :=
    match find (fun p => (fst p =? name)%nat) (nd_names nd) with
    | Some (_, k) => match nth_error (nd_vars nd) k with Some v => Val v | None => Bad end
    | None => Throws
    end.
  (** Node::getValues, getBounds, setVariables, incrementIndex, 57-92 *)
  Definition node_values (nd : node) : list T := flat_map v_vals (nd_vars nd).
  Definition node_bounds (nd : node) : list (bnd T) := flat_map v_bnds (nd_vars nd).
  Definition node_shift (d : nat) (nd : node) : node :=
    {| nd_vars := map (var_shift d) (nd_vars nd); nd_names := nd_names nd; nd_length := nd_length nd |}.
  Fixpoint vars_set (x : list T) (vs : list var) : res (list var) :=
    match vs with [] => Val [] | v :: vs => rbind (var_set x v) (fun v => rbind (vars_set x vs) (fun vs => Val (v :: vs))) end.
  Definition node_set (x : list T) (nd : node) : res node :=
    rbind (vars_set x (nd_vars nd)) (fun vs => Val {| nd_vars := vs; nd_names := nd_names nd; nd_length := nd_length nd |}).

  (** NodesVariables, nodes_variables.cpp: nodes_, bounds_, n_dim_, values_; rows_ is n_dim_ after construction *)
  Record nodes := { ns_nodes : list node; ns_bounds : list (bnd T); ns_dim : nat; ns_values : list T }.
  (** addNode, 64-75 *)
  Definition nodes_add (s : nodes) (nd : node) : nodes :=
    let nd := node_shift (ns_dim s) nd in
    {| ns_nodes := ns_nodes s ++ [nd]; ns_bounds := ns_bounds s ++ node_bounds nd;
       ns_dim := ns_dim s + nd_length nd; ns_values := ns_values s |}.
  (** constructor, 39-62 *)
  Definition nodes_new (l : list node) : res nodes :=
    let s := fold_left nodes_add l {| ns_nodes := []; ns_bounds := []; ns_dim := 0; ns_values := [] |} in
    let values := flat_map node_values (ns_nodes s) in
    if (length values =? length (ns_bounds s))%nat
    then Val {| ns_nodes := ns_nodes s; ns_bounds := ns_bounds s; ns_dim := ns_dim s; ns_values := values |} else Bad.
  (** setVariables, 79-88 *)
  Fixpoint nodes_set_loop (x : list T) (l : list node) : res (list node) :=
    match l with [] => Val [] | nd :: l => rbind (node_set x nd) (fun nd => rbind (nodes_set_loop x l) (fun l => Val (nd :: l))) end.
  Definition nodes_set (x : list T) (s : nodes) : res nodes :=
    rbind (nodes_set_loop x (ns_nodes s)) (fun l =>
      Val {| ns_nodes := l; ns_bounds := ns_bounds s; ns_dim := ns_dim s; ns_values := x |}).
  (** building all nodes and the variable set *)
  Fixpoint build_nodes (l : list (list add)) : res (list node) :=
    match l with [] => Val [] | a :: l => rbind (node_adds node_new a) (fun nd => rbind (build_nodes l) (fun r => Val (nd :: r))) end.
  Definition build (l : list (list add)) : res nodes := rbind (build_nodes l) nodes_new.
  Definition all_vars (s : nodes) : list var := flat_map nd_vars (ns_nodes s).
End Nodes.
Arguments var : clear implicits.
Arguments node : clear implicits.
Arguments nodes : clear implicits.
Arguments add : clear implicits.
