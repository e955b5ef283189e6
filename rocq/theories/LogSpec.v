(** * How a table of comma-separated values is read *)
From Coq Require Import ZArith Ascii String List Bool Arith.
From Verif Require Import Num LogModel.
Import ListNotations.

Section Spec.
  Context {T : Type}.
  Definition is_ch (c : ascii) (s : sym T) : bool := match s with Ch d => Ascii.eqb c d | Nm _ => false end.
  Fixpoint split (sep : ascii) (s : list (sym T)) : list (list (sym T)) :=
    match s with
    | [] => [[]]
    | c :: s => if is_ch sep c then [] :: split sep s else match split sep s with f :: fs => (c :: f) :: fs | [] => [[c]] end
    end.
  (** every line ends with a newline *)
  Definition lines (s : list (sym T)) : list (list (sym T)) := removelast (split "010" s).
  Definition fields (line : list (sym T)) : list (list (sym T)) := split "," line.
  Definition table (s : list (sym T)) : list (list (list (sym T))) := map fields (lines s).
End Spec.
(** a name that needs no quoting *)
Fixpoint plain (s : string) : bool :=
  match s with EmptyString => true | String c s => negb (Ascii.eqb "," c) && negb (Ascii.eqb "010" c) && plain s end.

Section Rows.
  Context {T : Type} {NT : Num T}.
  Local Open Scope num_scope.
  Notation file := (list (sym T)).
  (** a line with a title and four columns for each of [n] things *)
  Definition row_of (title : string) (cells : nat -> list file) (n : nat) (row : list file) : Prop :=
    length row = (1 + 4 * n)%nat /\ nth 0 row [] = text title /\
    forall i j, (i < n)%nat -> (j < 4)%nat -> nth (1 + 4 * i + j) row [] = nth j (cells i) [].
  Definition names_of (names : list string) (i : nat) : list file := repeat (text (nth i names ""%string)) 4.
  Definition description (_ : nat) : list file := [text "oldexact"; text "dapprox"; text "dexact"; text "ratio"].
  (** what the columns hold *)
  Definition cost_cells (r : results T) (i : nat) : list file :=
    let old := nth i (old_cost_vals r) nzero in
    let dapprox := old - nth i (model_cost_vals r) nzero in
    let dexact := old - nth i (new_cost_vals r) nzero in
    [num old; num dapprox; num dexact; if nabs dapprox >? ndec 1 (-8) then num (dexact / dapprox) else text "nan"].
  Definition cnt_cells (r : results T) (i : nat) : list file :=
    let c := nth i (merit_error_coeffs r) nzero in
    let old := nth i (old_cnt_viols r) nzero in
    let dapprox := old - nth i (model_cnt_viols r) nzero in
    let dexact := old - nth i (new_cnt_viols r) nzero in
    [num (c * old); num (c * dapprox); num (c * dexact); if nabs dapprox >? ndec 1 (-8) then num (dexact / dapprox) else text "nan"].
  (** the results of one iteration of a problem with these names *)
  Record fits (vars costs cnts : list string) (r : results T) : Prop := {
    f_vars : var_names r = vars; f_costs : cost_names r = costs; f_cnts : cnt_names r = cnts;
    f_x : length (new_x r) = length vars;
    f_c1 : length (old_cost_vals r) = length costs; f_c2 : length (model_cost_vals r) = length costs; f_c3 : length (new_cost_vals r) = length costs;
    f_v1 : length (old_cnt_viols r) = length cnts; f_v2 : length (model_cnt_viols r) = length cnts; f_v3 : length (new_cnt_viols r) = length cnts;
    f_m : length (merit_error_coeffs r) = length cnts }.
End Rows.

Section Traj.
  Context {T : Type} {NT : Num T}.
  (** what is written after the field before the pose of link [k] *)
  Definition tag (links : list (string * list T)) (k : nat) : list (sym T) :=
    match nth_error links k with Some l => text (fst l) ++ text ": " | None => [] end.
  Definition well (links : list (string * list T)) : Prop := forall l, In l links -> plain (fst l) = true /\ length (snd l) = 7%nat.
End Traj.
