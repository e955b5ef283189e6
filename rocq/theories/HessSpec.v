(** * Quadratic forms and decompositions *)
From Coq Require Import List Arith Reals.
From Verif Require Import RSums.
Import ListNotations.
Local Open Scope R_scope.

(** the value of a quadratic form with the matrix A of n rows and columns *)
Definition form (n : nat) (A : nat -> nat -> R) (d : nat -> R) : R := bigsum n (fun i => bigsum n (fun j => A i j * d i * d j)).
Definition dot (n : nat) (a b : nat -> R) : R := bigsum n (fun i => a i * b i).
Definition symmetric (n : nat) (A : nat -> nat -> R) : Prop := forall i j, (i < n)%nat -> (j < n)%nat -> A i j = A j i.

(** what the eigenvalues and eigenvectors of a symmetric matrix are there for: A is the sum of the l v v^T (that the vectors are
    orthonormal is not needed) *)
Definition decomposes (n : nat) (A : nat -> nat -> R) (es : list (R * list R)) : Prop :=
  forall i j, (i < n)%nat -> (j < n)%nat -> A i j = rsum (fun e => fst e * nth i (snd e) 0 * nth j (snd e) 0) es.

(** a quadratic function of n variables *)
Definition quadratic (n : nat) (f : list R -> R) (c : R) (b : nat -> R) (A : nat -> nat -> R) : Prop :=
  symmetric n A /\
  forall z, length z = n -> f z = c + dot n b (fun i => nth i z 0) + / 2 * form n A (fun i => nth i z 0).
