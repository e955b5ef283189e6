(** * Result of a modelled C++ call

    [Ok]: returned normally.  [NoFuel]: the model's recursion bound was too small (not a C++
    outcome; excluded by the termination theorems).  [Undef]: failed assertion or undefined
    behaviour. *)
Inductive outcome (A : Type) := Ok (a : A) | NoFuel | Undef.
Arguments Ok {A}. Arguments NoFuel {A}. Arguments Undef {A}.
Definition obind {A B} (o : outcome A) (f : A -> outcome B) : outcome B :=
  match o with Ok a => f a | NoFuel => NoFuel | Undef => Undef end.

