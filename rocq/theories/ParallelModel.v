(** * Model of the serial and OpenMP loops over costs and constraints

    Sources: trajopt_sco/src/optimizers.cpp 176-339 (serial 176-233, OpenMP 261-339),
    trajopt_sco/src/modeling.cpp 18-36 (the only calls on the shared model during a loop are
    addVar(name, lb, ub)), trajopt_sco/src/solver_interface.cpp 111-116 (addVar then setVarBounds),
    trajopt_sco/src/osqp_interface.cpp 123-130 (addVar, under the mutex) and 420-428 (setVarBounds, not).

    Every iteration is its own thread (at least as many interleavings as OpenMP allows).  Evaluating a
    term is a function of x: distinct iterations use distinct cost and constraint objects.  The
    convexification of a cost is the list of bounds of the variables it adds, in order, and a function from
    the variables it was given to the resulting expression. *)
From Coq Require Import List Arith Bool.
From Verif Require Import BackendModel.
Import ListNotations.

(** ** Evaluation: out[i] = f(i) *)
(** serial, e.g. 179-181 *)
Definition eval_serial {A} (f : nat -> A) (n : nat) : list A := map f (seq 0 n).
(** parallel, e.g. 263-268: [order] is the order in which the stores happen; [old] what out held *)
Definition eval_parallel {A} (f : nat -> A) (order : list nat) (old : list A) : list A :=
  fold_left (fun out i => set_nth out i (f i)) order old.

(** ** Convexification *)
Section Convexify.
  (** bounds of a variable *)
  Variable B : Type.
  (** the bounds addVar(name) starts with *)
  Variable free : B.
  (** iteration -> bounds of the variables it adds *)
  Variable wants : nat -> list B.

  Definition upd {A} (f : nat -> A) (i : nat) (a : A) : nat -> A := fun j => if j =? i then a else f j.

  (** *** addVar(name, lb, ub) taken as one step *)
  Record pool := { p_bounds : list B; p_ids : nat -> list nat }.
  Definition add_one (s : pool) (i : nat) : pool :=
    match nth_error (wants i) (length (p_ids s i)) with
    | Some b => {| p_bounds := p_bounds s ++ [b]; p_ids := upd (p_ids s) i (p_ids s i ++ [length (p_bounds s)]) |}
    | None => s
    end.
  Definition adds (s : pool) (schedule : list nat) : pool := fold_left add_one schedule s.
  (** the serial loop: iteration after iteration *)
  Definition serial_order (n : nat) : list nat := flat_map (fun i => repeat i (length (wants i))) (seq 0 n).
  (** out[i], given what iteration i builds from its variables *)
  Definition built {E} (build : nat -> list nat -> E) (s : pool) (n : nat) : list E := map (fun i => build i (p_ids s i)) (seq 0 n).

  (** *** the steps of addVar and setVarBounds.
      Under the mutex push_back copies the elements into a larger buffer when the capacity is used up, and
      then takes that buffer; setVarBounds stores into the buffer it sees, without the mutex. *)
  Inductive phase := Idle | Growing | Unset.
  Record shared := {
    h_buf : list B; h_cap : nat;
    h_new : option (nat * option (list B)); (** who holds the mutex, and the copy if the buffer is being replaced *)
    h_ids : nat -> list nat; h_phase : nat -> phase }.
  Definition small_step (s : shared) (i : nat) : shared :=
    match h_phase s i with
    | Idle =>
        match nth_error (wants i) (length (h_ids s i)), h_new s with
        | Some _, None =>
            {| h_buf := h_buf s; h_cap := h_cap s;
               h_new := Some (i, if length (h_buf s) <? h_cap s then None else Some (h_buf s ++ [free]));
               h_ids := h_ids s; h_phase := upd (h_phase s) i Growing |}
        | _, _ => s (* finished, or waiting for the mutex *)
        end
    | Growing =>
        let ids := upd (h_ids s) i (h_ids s i ++ [length (h_buf s)]) in
        match h_new s with
        | Some (_, Some b) => {| h_buf := b; h_cap := 2 * length b; h_new := None; h_ids := ids; h_phase := upd (h_phase s) i Unset |}
        | _ => {| h_buf := h_buf s ++ [free]; h_cap := h_cap s; h_new := None; h_ids := ids; h_phase := upd (h_phase s) i Unset |}
        end
    | Unset =>
        {| h_buf := set_nth (h_buf s) (last (h_ids s i) 0) (nth (length (h_ids s i) - 1) (wants i) free); h_cap := h_cap s;
           h_new := h_new s; h_ids := h_ids s; h_phase := upd (h_phase s) i Idle |}
    end.
  Definition small_steps (s : shared) (schedule : list nat) : shared := fold_left small_step schedule s.
  Definition start (old : list B) (cap : nat) : shared :=
    {| h_buf := old; h_cap := cap; h_new := None; h_ids := fun _ => []; h_phase := fun _ => Idle |}.
  (** all iterations below n have finished *)
  Definition finished (s : shared) (n : nat) : Prop := forall i, i < n -> h_phase s i = Idle /\ length (h_ids s i) = length (wants i).
End Convexify.
Arguments p_bounds {B}. Arguments p_ids {B}. Arguments h_buf {B}. Arguments h_cap {B}. Arguments h_new {B}. Arguments h_ids {B}. Arguments h_phase {B}.
Arguments add_one {B}. Arguments adds {B}. Arguments serial_order {B}. Arguments built {B} {E}. Arguments small_step {B}. Arguments small_steps {B}. Arguments start {B}. Arguments finished {B}.
