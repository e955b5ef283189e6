(** * What a backend is supposed to hold after a history of calls

    Independent of the backends' vectors: every created variable and constraint is remembered with
    what was last said about it. *)
From Coq Require Import List Bool Arith.
From Verif Require Import Num ScoExprModel BackendModel.
Import ListNotations.

Section Spec.
  Context {T : Type} {NT : Num T}.
  Inductive call :=
  | AddVar | RemoveVar (id : nat) | SetBounds (id : nat) (l u : T)
  | AddCnt (ineq : bool) (e : aff T) | RemoveCnt (id : nat)
  | SetAff (e : aff T) | SetQuad (q : quad T) | Update.

  (** the modelled backend *)
  Definition bcall (inf : T) (s : backend T) (c : call) : option (backend T) :=
    match c with
    | AddVar => Some (add_var inf s)
    | RemoveVar id => Some (remove_var s id)
    | SetBounds id l u => set_bounds s id l u
    | AddCnt i e => Some (add_cnt s i e)
    | RemoveCnt id => Some (remove_cnt s id)
    | SetAff e => Some (set_obj_aff s e)
    | SetQuad q => Some (set_obj_quad s q)
    | Update => Some (update s)
    end.
  Fixpoint bcalls (inf : T) (s : backend T) (cs : list call) : option (backend T) :=
    match cs with
    | [] => Some s
    | c :: cs => match bcall inf s c with Some s => bcalls inf s cs | None => None end
    end.

  (** the history, most recent call last *)
  Record vfact := { v_gone : bool; v_lo : T; v_hi : T }.
  Record cfact := { c_gone : bool; c_ineq : bool; c_expr : aff T }.
  Definition no_v : vfact := {| v_gone := false; v_lo := nzero; v_hi := nzero |}.
  Definition no_c : cfact := {| c_gone := false; c_ineq := false; c_expr := aff_const nzero |}.
  Definition note_v (inf : T) (f : list vfact) (c : call) : list vfact :=
    match c with
    | AddVar => f ++ [{| v_gone := false; v_lo := nopp inf; v_hi := inf |}]
    | RemoveVar id => set_nth f id {| v_gone := true; v_lo := v_lo (nth id f no_v); v_hi := v_hi (nth id f no_v) |}
    | SetBounds id l u => set_nth f id {| v_gone := v_gone (nth id f no_v); v_lo := l; v_hi := u |}
    | _ => f
    end.
  Definition note_c (f : list cfact) (c : call) : list cfact :=
    match c with
    | AddCnt i e => f ++ [{| c_gone := false; c_ineq := i; c_expr := e |}]
    | RemoveCnt id => set_nth f id {| c_gone := true; c_ineq := c_ineq (nth id f no_c); c_expr := c_expr (nth id f no_c) |}
    | _ => f
    end.
  Definition vfacts (inf : T) (cs : list call) : list vfact := fold_left (note_v inf) cs [].
  Definition cfacts (cs : list call) : list cfact := fold_left note_c cs [].

  (** calls that only mention existing objects, and set bounds only for variables not removed *)
  Fixpoint sane (inf : T) (vf : list vfact) (cf : list cfact) (cs : list call) : Prop :=
    match cs with
    | [] => True
    | c :: cs =>
        match c with
        | RemoveVar id => id < length vf
        | RemoveCnt id => id < length cf
        | SetBounds id _ _ => id < length vf /\ v_gone (nth id vf no_v) = false
        | _ => True
        end /\ sane inf (note_v inf vf c) (note_c cf c) cs
    end.

  (** the variables and constraints that exist, in order of creation *)
  Definition live_v (f : list vfact) : list nat := filter (fun id => negb (v_gone (nth id f no_v))) (seq 0 (length f)).
  Definition live_c (f : list cfact) : list nat := filter (fun id => negb (c_gone (nth id f no_c))) (seq 0 (length f)).
End Spec.
Arguments call : clear implicits.
Arguments vfact : clear implicits.
Arguments cfact : clear implicits.
