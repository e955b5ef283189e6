(** * Model of the pipe protocol between BPMPDModel and bpmpd_caller, and of the solver names

    Sources: trajopt_sco/include/trajopt_sco/bpmpd_io.hpp, trajopt_sco/src/bpmpd_caller.cpp,
    trajopt_sco/src/bpmpd_interface.cpp 506-530, trajopt_sco/src/solver_interface.cpp 14 and 214-375,
    trajopt_sco/include/trajopt_sco/solver_interface.hpp 226-253.

    Memory is bytes (naturals below 256), least significant byte first; a double is its 64-bit image.
    The pipe is the bytes written and not yet read.  What the operating system does is a schedule: the
    i-th call of read or write handles at most [g i] bytes.  The caller's reads and the parent's writes
    are put one after the other; that a read can find only part of a message is part of the schedule.
    errno, blocking and end of file are left out. *)
From Coq Require Import String ZArith Bool Arith List.
Import ListNotations.
Local Open Scope Z_scope.

(** a run ends normally, by a failed assertion, or by exit(0) *)
Inductive io (A : Type) := Done (a : A) (pipe : list Z) (calls : nat) | Abort | Exited.
Arguments Done {A}. Arguments Abort {A}. Arguments Exited {A}.
Definition prog (A : Type) := list Z -> nat -> io A.
Definition ret {A} (a : A) : prog A := fun p c => Done a p c.
Definition bind {A B} (x : prog A) (f : A -> prog B) : prog B :=
  fun p c => match x p c with Done a p c => f a p c | Abort => Abort | Exited => Exited end.
Notation "x <- e ;; k" := (bind e (fun x => k)) (at level 60, e at next level, right associativity).

(** memory images *)
Fixpoint le (k : nat) (v : Z) : list Z := match k with O => [] | S k => v mod 256 :: le k (v / 256) end.
Fixpoint unle (b : list Z) : Z := match b with [] => 0 | x :: b => x + 256 * unle b end.
(** int: 4 bytes, two's complement *)
Definition img_int (v : Z) : list Z := le 4 (v mod 2 ^ 32).
Definition int_img (b : list Z) : Z := let u := unle b in if u <? 2 ^ 31 then u else u - 2 ^ 32.

Section Io.
  (** assertions compiled in or not (NDEBUG) *)
  Variable asserts : bool.
  (** bytes the i-th call handles at most *)
  Variable g : nat -> nat.

  (** write(fp, img, |img|) and assert(n == |img|), bpmpd_io.hpp 26-28 and 50-52 *)
  Definition wr (img : list Z) : prog unit := fun p c =>
    let n := Nat.min (g c) (length img) in
    if (asserts && negb (n =? length img)%nat)%bool then Abort else Done tt (p ++ firstn n img) (S c).
  (** read(fp, buf, k) and assert(n == k), bpmpd_io.hpp 33-36 and 57-60; [buf] is what the memory held *)
  Definition rd (buf : list Z) : prog (list Z) := fun p c =>
    let n := Nat.min (g c) (Nat.min (length buf) (length p)) in
    if (asserts && negb (n =? length buf)%nat)%bool then Abort else Done (firstn n p ++ skipn n buf) (skipn n p) (S c).

  (** ser of one value, 19-40 *)
  Definition put_char (v : Z) : prog unit := wr (le 1 v).
  Definition get_char (old : Z) : prog Z := b <- rd (le 1 old) ;; ret (unle b).
  Definition put_int (v : Z) : prog unit := wr (img_int v).
  Definition get_int (old : Z) : prog Z := b <- rd (img_int old) ;; ret (int_img b).
  Definition put_dbl (v : Z) : prog unit := wr (le 8 v).
  Definition get_dbl (old : Z) : prog Z := b <- rd (le 8 old) ;; ret (unle b).
  Definition put_size (v : Z) : prog unit := wr (le 8 v).
  Definition get_size (old : Z) : prog Z := b <- rd (le 8 old) ;; ret (unle b).

  (** x.data() as elements of [w] bytes *)
  Fixpoint chunks (w n : nat) (b : list Z) : list (list Z) :=
    match n with O => [] | S n => firstn w b :: chunks w n (skipn w b) end.
  (** ser of a vector, 42-65; [w] is sizeof(T), [img]/[val] the image of an element.  Reading resizes the
      vector (new elements are zero) and reads over it; it starts empty in every use. *)
  Definition put_vec (w : nat) (img : Z -> list Z) (x : list Z) : prog unit :=
    _ <- put_size (Z.of_nat (length x)) ;; wr (flat_map img x).
  Definition get_vec (w : nat) (val : list Z -> Z) : prog (list Z) :=
    n <- get_size 0 ;;
    b <- rd (repeat 0 (w * Z.to_nat n)) ;;
    ret (map val (chunks w (Z.to_nat n) b)).
  Definition put_ints := put_vec 4 img_int.
  Definition get_ints := get_vec 4 int_img.
  Definition put_dbls := put_vec 8 (le 8).
  Definition get_dbls := get_vec 8 unle.

  (** bpmpd_input, 67-112, in the order of its fields *)
  Record input := { n_m : Z; n_n : Z; n_nz : Z; n_qn : Z; n_qnz : Z;
    n_acolcnt : list Z; n_acolidx : list Z; n_acolnzs : list Z; n_qcolcnt : list Z; n_qcolidx : list Z; n_qcolnzs : list Z;
    n_rhs : list Z; n_obj : list Z; n_lbound : list Z; n_ubound : list Z }.
  (** bpmpd_output, 142-153 *)
  Record output := { t_primal : list Z; t_dual : list Z; t_status : list Z; t_code : Z; t_opt : Z }.

  Definition exit_char : Z := 123.
  Definition check_char : Z := 111.
  (** ser(fp, bpmpd_input&, SER), 117-140 ('z' is 122) *)
  Definition put_input (i : input) : prog unit :=
    _ <- put_char 122 ;;
    _ <- put_int (n_m i) ;; _ <- put_int (n_n i) ;; _ <- put_int (n_nz i) ;; _ <- put_int (n_qn i) ;; _ <- put_int (n_qnz i) ;;
    _ <- put_ints (n_acolcnt i) ;; _ <- put_ints (n_acolidx i) ;; _ <- put_dbls (n_acolnzs i) ;;
    _ <- put_ints (n_qcolcnt i) ;; _ <- put_ints (n_qcolidx i) ;; _ <- put_dbls (n_qcolnzs i) ;;
    _ <- put_dbls (n_rhs i) ;; _ <- put_dbls (n_obj i) ;; _ <- put_dbls (n_lbound i) ;; put_dbls (n_ubound i).
  (** the same with DESER into a default constructed bpmpd_input *)
  Definition get_input : prog input :=
    s <- get_char 0 ;;
    if s =? exit_char then (fun _ _ => Exited) else
    m <- get_int 0 ;; n <- get_int 0 ;; nz <- get_int 0 ;; qn <- get_int 0 ;; qnz <- get_int 0 ;;
    acolcnt <- get_ints ;; acolidx <- get_ints ;; acolnzs <- get_dbls ;;
    qcolcnt <- get_ints ;; qcolidx <- get_ints ;; qcolnzs <- get_dbls ;;
    rhs <- get_dbls ;; obj <- get_dbls ;; lbound <- get_dbls ;; ubound <- get_dbls ;;
    ret {| n_m := m; n_n := n; n_nz := nz; n_qn := qn; n_qnz := qnz; n_acolcnt := acolcnt; n_acolidx := acolidx; n_acolnzs := acolnzs;
           n_qcolcnt := qcolcnt; n_qcolidx := qcolidx; n_qcolnzs := qcolnzs; n_rhs := rhs; n_obj := obj; n_lbound := lbound; n_ubound := ubound |}.
  (** ser(fp, bpmpd_output&, mode), 155-167; the check character is not compared when reading *)
  Definition put_output (o : output) : prog unit :=
    _ <- put_char check_char ;;
    _ <- put_dbls (t_primal o) ;; _ <- put_dbls (t_dual o) ;; _ <- put_ints (t_status o) ;; _ <- put_int (t_code o) ;; put_dbl (t_opt o).
  Definition get_output : prog output :=
    s <- get_char 0 ;;
    if s =? exit_char then (fun _ _ => Exited) else
    primal <- get_dbls ;; dual <- get_dbls ;; status <- get_ints ;; code <- get_int 0 ;; opt <- get_dbl 0 ;;
    ret {| t_primal := primal; t_dual := dual; t_status := status; t_code := code; t_opt := opt |}.

  (** the parent sends problems one after the other, and EXIT_CHAR when it ends (bpmpd_interface.cpp 211-216) *)
  Fixpoint put_inputs (l : list input) : prog unit :=
    match l with [] => put_char exit_char | i :: l => _ <- put_input i ;; put_inputs l end.
  (** the loop of bpmpd_caller's main, 48-98: the problems it read, and whether it then exited *)
  Fixpoint serve (fuel : nat) (p : list Z) (c : nat) : list input * option bool :=
    match fuel with
    | O => ([], None)
    | S fuel =>
        match get_input p c with
        | Done i p c => let (l, e) := serve fuel p c in (i :: l, e)
        | Abort => ([], Some false)
        | Exited => ([], Some true)
        end
    end.
End Io.

(** ** Solver names *)
(** ModelType::Value, solver_interface.hpp 229-236: the enumerators in order *)
Inductive kind := GUROBI | OSQP | QPOASES | BPMPD | AUTO_SOLVER.
Definition kind_value (k : kind) : nat := match k with GUROBI => 0 | OSQP => 1 | QPOASES => 2 | BPMPD => 3 | AUTO_SOLVER => 4 end.
(** the name of the enumerator in the source text *)
Definition kind_name (k : kind) : string :=
  match k with GUROBI => "GUROBI" | OSQP => "OSQP" | QPOASES => "QPOASES" | BPMPD => "BPMPD" | AUTO_SOLVER => "AUTO_SOLVER" end.
(** MODEL_NAMES_, solver_interface.cpp 14 *)
Definition model_names : list string := ["GUROBI"; "BPMPD"; "OSQP"; "QPOASES"; "AUTO_SOLVER"]%string.
(** ModelType(const std::string&), 230-241: [None] is the exception *)
Fixpoint find_name (s : string) (i : nat) (l : list string) : option nat :=
  match l with [] => None | x :: l => if String.eqb s x then Some i else find_name s (S i) l end.
Definition of_name (s : string) : option nat := find_name s 0 model_names.
(** operator<<, 214-225: printed text, exception, or a read past the end of the table *)
Inductive shown := Text (s : string) | Throw | OutOfTable.
Definition show (v : nat) : shown :=
  if (length model_names <? v)%nat then Throw
  else match nth_error model_names v with Some s => Text s | None => OutOfTable end.
(** availableSolvers, 258-287; [have] is which of the HAVE_ macros are defined *)
Definition available (have : nat -> bool) : list nat := filter have (seq 0 (kind_value AUTO_SOLVER)).
(** createModel, 289-370: the solver created; [env] is TRAJOPT_CONVEX_SOLVER *)
Inductive created := Created (v : nat) | CreateThrows | EmptyAccess.
Definition create_model (have : nat -> bool) (env : option string) (requested : nat) : created :=
  let make v := if ((v <? 4)%nat && have v)%bool then Created v else CreateThrows in
  if (requested =? kind_value AUTO_SOLVER)%nat then
    match env with
    | Some e =>
        if String.eqb e "AUTO_SOLVER" then match available have with v :: _ => make v | [] => EmptyAccess end
        else match of_name e with Some v => make v | None => CreateThrows end
    | None => match available have with v :: _ => make v | [] => EmptyAccess end
    end
  else make requested.
