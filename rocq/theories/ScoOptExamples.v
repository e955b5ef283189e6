(** * Concrete problems used as examples and counterexamples for the sco optimizer theorems *)
From Coq Require Import List ZArith QArith Reals Bool Floats.SpecFloat.
From Verif Require Import Num Common ScoOptModel.
Import ListNotations.
Open Scope Q_scope.

(** World: the scripted answers of the convex solver and of the clock (0 when exhausted). *)
Record oscript (T : Type) := { os_qp : list (option (list T)); os_clock : list T }.
Arguments os_qp {T}. Arguments os_clock {T}.
Definition omk {T} q c : oscript T := {| os_qp := q; os_clock := c |}.

Definition oscripted {T} {NT : Num T} (ncnt : nat) (proj : list T -> list T)
  (costs viols model : list T -> list T) : oenv T (oscript T) :=
  {| o_ncnt := ncnt; o_project := proj; o_costs := costs; o_viols := viols;
     o_convexify := fun w _ _ => w; o_setbox := fun w _ _ => w;
     o_qp := fun w => match os_qp w with
       | [] => (w, None)
       | a :: r => (omk r (os_clock w), a) end;
     o_mcosts := fun _ => model; o_mviols := fun _ => viols;
     o_callback := fun w => w;
     o_clock := fun w => match os_clock w with
       | [] => (w, nzero)
       | a :: r => (omk (os_qp w) r, a) end |}.

(** the defaults of optimizers.hpp 102-147 (numeric_limits replaced by -1000000), with the given
    iteration and failure limits *)
Definition odefaults {T} {NT : Num T} (iters fails : Z) : oparams T :=
  {| oimprove_ratio_threshold := ndec 25 (-2); omin_trust_box_size := ndec 1 (-4);
     omin_approx_improve := ndec 1 (-4); omin_approx_improve_frac := nofZ (- 1000000);
     omax_iter := iters; otrust_shrink_ratio := ndec 1 (-1); otrust_expand_ratio := ndec 15 (-1);
     ocnt_tolerance := ndec 1 (-4); omax_merit_coeff_increases := nofZ 5;
     omax_qp_solver_failures := fails; omerit_coeff_increase_ratio := nofZ 10;
     omax_time := nofZ 1000; oinitial_merit_error_coeff := nofZ 10; oinflate_individually := true |}.

Definition ofresh {T W} (box : T) (w : W) : osst T W :=
  {| o_x := []; o_cost_vals := []; o_cnt_viols := []; o_nfe := 0; o_nqp := 0; o_box := box;
     o_merit := []; o_world := w; o_trace := [] |}.

(** minimise x^2 subject to x >= 1, variables projected onto x <= 4 *)
Definition oexq : oenv Q (oscript Q) :=
  oscripted 1 (map (fun a => if nltb 4 a then 4 else a))
    (fun x => match x with a :: _ => [Qred (a * a)] | [] => [] end)
    (fun x => match x with a :: _ => [nmax nzero (Qred (1 - a))] | [] => [] end)
    (fun x => match x with a :: _ => [if nltb (5 # 2) a then nzero else Qred (a * a)] | [] => [] end).

(** projection, an accepted step, a rejected one, a QP failure, convergence at x = 1 *)
Definition ogood := optimize (odefaults 50 3) oexq 50
  (oinitialize [7] (ofresh (1 # 10) (omk [Some [2]; Some [3]; None; Some [1; 9]; Some [1]] []))).

(** the clock is past the limit when it is first read *)
Definition olate := optimize (odefaults 50 3) oexq 50
  (oinitialize [0] (ofresh (1 # 10) (omk [] [2000]))).

(** the first run ends slightly outside the bound 4 (within the tolerance of a QP solver); the
    second call projects x but keeps the stored values *)
Definition oleft : oenv Q (oscript Q) :=
  oscripted 0 (map (fun a => if nltb 4 a then 4 else a))
    (fun x => match x with a :: _ => [Qred ((a - 5) * (a - 5))] | [] => [] end) (fun _ => [])
    (fun x => match x with a :: _ => [Qred ((a - 5) * (a - 5))] | [] => [] end).
Definition ostale :=
  match optimize (odefaults 50 3) oleft 50
    (oinitialize [3] (ofresh (1 # 10) (omk [Some [4001 # 1000]; Some [4001 # 1000]] [0; 0; 2000]))) with
  | Ok (Some (_, s)) => optimize (odefaults 50 3) oleft 50 s
  | r => r
  end.

(** minimise x^2 without constraints: the same problem and the same start, once with a new
    optimizer and once after a run in which every step was rejected *)
Definition oplain : oenv Q (oscript Q) :=
  oscripted 0 (fun x => x) 
    (fun x => match x with a :: _ => [Qred (a * a)] | [] => [] end) (fun _ => []) 
    (fun x => match x with a :: _ => [if nltb (5 # 2) a then nzero else Qred (a * a)] | [] => [] end).
Definition ofirst := optimize (odefaults 50 3) oplain 50
  (oinitialize [2] (ofresh (1 # 10) (omk [Some [0]; Some [0]] []))).
Definition oreused :=
  match optimize (odefaults 50 3) oplain 50
    (oinitialize [2] (ofresh (1 # 10) (omk [Some [3]; Some [3]; Some [3]; Some [3]] []))) with
  | Ok (Some (_, s)) => optimize (odefaults 50 3) oplain 50
      (oinitialize [2] {| o_x := o_x s; o_cost_vals := o_cost_vals s; o_cnt_viols := o_cnt_viols s; o_nfe := o_nfe s;
         o_nqp := o_nqp s; o_box := o_box s; o_merit := o_merit s; o_world := omk [Some [0]; Some [0]] []; o_trace := [] |})
  | r => r
  end.

(** every QP fails *)
Definition ofail (limit : Z) := optimize (odefaults 50 limit) oplain 50
  (oinitialize [2] (ofresh (1 # 10) (omk [] []))).

(** binary64: the second violation is NaN *)
Definition onan := optimize (NT := f64_Num) (@odefaults f64 f64_Num 50 3)
  (@oscripted f64 f64_Num 2 (fun x => x) (fun _ => [f64_ofZ 1]) (fun _ => [f64_ofZ 0; S754_nan]) (fun _ => [f64_ofZ 1])) 50
  (oinitialize [f64_ofZ 2] (ofresh (f64_ofZ 1) (omk [Some [f64_ofZ 3]] [f64_ofZ 0; f64_ofZ 2000]))).

(** A run over the reals with one accepted step (from 3 to 2). *)
Definition oreal_params : oparams R :=
  {| oimprove_ratio_threshold := 1/4; omin_trust_box_size := 1; omin_approx_improve := 1;
     omin_approx_improve_frac := -10; omax_iter := 1; otrust_shrink_ratio := 1/2; otrust_expand_ratio := 2;
     ocnt_tolerance := 1; omax_merit_coeff_increases := 2; omax_qp_solver_failures := 3;
     omerit_coeff_increase_ratio := 10; omax_time := 1000; oinitial_merit_error_coeff := 10;
     oinflate_individually := true |}%R.
Definition oreal_env : oenv R unit :=
  {| o_ncnt := 0; o_project := fun x => x;
     o_costs := fun x => match x with a :: _ => [a * a]%R | [] => [] end; o_viols := fun _ => [];
     o_convexify := fun w _ _ => w; o_setbox := fun w _ _ => w; o_qp := fun w => (w, Some [2%R]);
     o_mcosts := fun _ x => match x with a :: _ => [a * a]%R | [] => [] end; o_mviols := fun _ _ => [];
     o_callback := fun w => w; o_clock := fun w => (w, 0%R) |}.
