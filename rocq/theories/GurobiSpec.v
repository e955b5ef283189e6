(** * What Gurobi is supposed to hold after a history of calls

    Every created variable and constraint is remembered with what was last said about it (as in BackendSpec.v), together
    with what the caller has to know to use the interface: which objects existed, and which were already gone, when Gurobi
    last processed its queue. *)
From Coq Require Import List Bool Arith Reals.
From Verif Require Import Num ScoExprModel BackendModel BackendSpec GurobiModel.
Import ListNotations.

Section Spec.
  Context {T : Type} {NT : Num T}.
  Inductive gcall :=
  | GAddVar (lo hi : T) | GRemoveVars (vars : list nat) | GSetBounds (vars : list nat) (lower upper : list T)
  | GAddCnt (ineq : bool) (e : aff T) | GAddQuadCnt (q : quad T) | GRemoveCnts (cnts : list nat)
  | GSetAff (e : aff T) | GSetQuad (q : quad T) | GUpdate | GOptimize (x : list T).

  (** the modelled backend *)
  Definition grun1 (s : gmodel T) (c : gcall) : gout (gmodel T) :=
    match c with
    | GAddVar lo hi => GOk (g_add_var s lo hi)
    | GRemoveVars vars => g_remove_vars s vars
    | GSetBounds vars lower upper => g_set_bounds s vars lower upper
    | GAddCnt i e => g_add_cnt s i e
    | GAddQuadCnt q => gbind (g_add_quad_cnt s q) (fun r => GOk (fst r))
    | GRemoveCnts cnts => g_remove_cnts s (map Some cnts)
    | GSetAff e => g_set_aff s e
    | GSetQuad q => g_set_quad s q
    | GUpdate => GOk (g_update s)
    | GOptimize x => GOk (g_optimize s x)
    end.
  Fixpoint grun (s : gmodel T) (cs : list gcall) : gout (gmodel T) :=
    match cs with [] => GOk s | c :: cs => gbind (grun1 s c) (fun s => grun s cs) end.

  (** the history: variables, constraints, quadratic constraints, objective; the numbers of variables and constraints
      there were when the queue was last processed, and those that update() has dropped *)
  Record ghist := {
    h_v : list (vfact T); h_c : list (cfact T); h_q : list (quad T); h_obj : quad T;
    h_kv : nat; h_kc : nat; h_deadv : list nat; h_deadc : list nat }.
  Definition no_hist : ghist :=
    {| h_v := []; h_c := []; h_q := []; h_obj := quad_const nzero; h_kv := 0; h_kc := 0; h_deadv := []; h_deadc := [] |}.
  Definition gone_v (f : list (vfact T)) : list nat := filter (fun id => v_gone (nth id f no_v)) (seq 0 (length f)).
  Definition gone_c (f : list (cfact T)) : list nat := filter (fun id => c_gone (nth id f no_c)) (seq 0 (length f)).
  Definition lose_v (f : list (vfact T)) (id : nat) : list (vfact T) :=
    set_nth f id {| v_gone := true; v_lo := v_lo (nth id f no_v); v_hi := v_hi (nth id f no_v) |}.
  Definition lose_c (f : list (cfact T)) (id : nat) : list (cfact T) :=
    set_nth f id {| c_gone := true; c_ineq := c_ineq (nth id f no_c); c_expr := c_expr (nth id f no_c) |}.
  Definition bound_v (f : list (vfact T)) (b : nat * (T * T)) : list (vfact T) :=
    set_nth f (fst b) {| v_gone := v_gone (nth (fst b) f no_v); v_lo := fst (snd b); v_hi := snd (snd b) |}.
  Definition hist_v (h : ghist) v : ghist :=
    {| h_v := v; h_c := h_c h; h_q := h_q h; h_obj := h_obj h; h_kv := h_kv h; h_kc := h_kc h; h_deadv := h_deadv h; h_deadc := h_deadc h |}.
  Definition hist_c (h : ghist) c : ghist :=
    {| h_v := h_v h; h_c := c; h_q := h_q h; h_obj := h_obj h; h_kv := h_kv h; h_kc := h_kc h; h_deadv := h_deadv h; h_deadc := h_deadc h |}.
  Definition hist_obj (h : ghist) o : ghist :=
    {| h_v := h_v h; h_c := h_c h; h_q := h_q h; h_obj := o; h_kv := h_kv h; h_kc := h_kc h; h_deadv := h_deadv h; h_deadc := h_deadc h |}.
  Definition hnote (h : ghist) (c : gcall) : ghist :=
    match c with
    | GAddVar lo hi => hist_v h (h_v h ++ [{| v_gone := false; v_lo := lo; v_hi := hi |}])
    | GRemoveVars vars => hist_v h (fold_left lose_v vars (h_v h))
    | GSetBounds vars lower upper => hist_v h (fold_left bound_v (combine vars (combine lower upper)) (h_v h))
    | GAddCnt i e => hist_c h (h_c h ++ [{| c_gone := false; c_ineq := i; c_expr := e |}])
    | GAddQuadCnt q =>
        {| h_v := h_v h; h_c := h_c h; h_q := h_q h ++ [q]; h_obj := h_obj h; h_kv := h_kv h; h_kc := h_kc h;
           h_deadv := h_deadv h; h_deadc := h_deadc h |}
    | GRemoveCnts cnts => hist_c h (fold_left lose_c cnts (h_c h))
    | GSetAff e => hist_obj h (quad_of_aff e)
    | GSetQuad q => hist_obj h q
    | GUpdate | GOptimize _ =>
        {| h_v := h_v h; h_c := h_c h; h_q := h_q h; h_obj := h_obj h; h_kv := length (h_v h); h_kc := length (h_c h);
           h_deadv := gone_v (h_v h); h_deadc := gone_c (h_c h) |}
    end.
  Definition history (cs : list gcall) : ghist := fold_left hnote cs no_hist.

  (** a variable (constraint) Gurobi knows and update() has not dropped *)
  Definition usable (h : ghist) (id : nat) : Prop := id < h_kv h /\ ~ In id (h_deadv h).
  Definition usable_c (h : ghist) (id : nat) : Prop := id < h_kc h /\ ~ In id (h_deadc h).
  Definition usable_q (h : ghist) (q : quad T) : Prop :=
    wf_quad q /\ Forall (usable h) (a_vars (q_aff q)) /\ Forall (usable h) (q_vars1 q) /\ Forall (usable h) (q_vars2 q).
  (** the rules of the interface *)
  Definition may (h : ghist) (c : gcall) : Prop :=
    match c with
    | GAddVar _ _ | GUpdate => True
    | GRemoveVars vars => Forall (usable h) vars
    | GSetBounds vars lower upper => length vars = length lower /\ length vars = length upper /\ Forall (usable h) vars
    | GAddCnt _ e => wf_aff e /\ Forall (usable h) (a_vars e)
    | GAddQuadCnt q => usable_q h q
    | GRemoveCnts cnts => Forall (usable_c h) cnts
    | GSetAff e => wf_aff e /\ Forall (usable h) (a_vars e) /\ h_kv h = length (h_v h)
    | GSetQuad q => usable_q h q /\ h_kv h = length (h_v h)
    | GOptimize _ => gone_v (h_v h) = h_deadv h /\ gone_c (h_c h) = h_deadc h
    end.
  Fixpoint obeys (h : ghist) (cs : list gcall) : Prop :=
    match cs with [] => True | c :: cs => may h c /\ obeys (hnote h c) cs end.
End Spec.
Arguments gcall : clear implicits.
Arguments ghist : clear implicits.

Local Open Scope R_scope.
(** ** the program a state of Gurobi stands for *)
Definition lin_at (l : list (nat * R)) (x : list R) : R := fold_right Rplus 0 (map (fun t => snd t * nth (fst t) x 0) l).
Definition quad_at (l : list (nat * nat * R)) (x : list R) : R :=
  fold_right Rplus 0 (map (fun t => snd t * nth (fst (fst t)) x 0 * nth (snd (fst t)) x 0) l).
Definition row_holds (r : grow R) (x : list R) : Prop :=
  if gr_ineq r then lin_at (gr_terms r) x <= gr_rhs r else lin_at (gr_terms r) x = gr_rhs r.
Definition qrow_holds (r : gqrow R) (x : list R) : Prop := lin_at (gq_lin r) x + quad_at (gq_quad r) x <= gq_rhs r.
Definition objective_at (g : grb R) (x : list R) : R :=
  fold_right Rplus 0 (map (fun p => gc_obj (fst p) * snd p) (combine (g_cols g) x)) + quad_at (g_q g) x + g_con g.

(** values of all variables ever created, with 0 for those that are gone; and of those that are there *)
Definition without (f : list (vfact R)) (X : list R) : list R :=
  map (fun id => if v_gone (nth id f no_v) then 0 else nth id X 0) (seq 0 (length f)).
Definition remaining (f : list (vfact R)) (X : list R) : list R := map (fun id => nth id X 0) (live_v f).

(** ** how BasicTrustRegionSQP::optimize uses a backend *)
Local Open Scope nat_scope.
Section Rounds.
  Context {T : Type} {NT : Num T}.
  (** what one pass of the outer loop (optimizers.cpp 782-880) creates, asks for and takes away again: the variables and
      constraints of the convex models, the objective, bounds and result of every QP, and the removals by the destructors of
      the convex models at the end of the pass (modeling.cpp 99-109 and 126-147) *)
  Record round := {
    r_vars : list (T * T); r_cnts : list (bool * aff T); r_obj : quad T; r_solves : list (list T * list T * list T);
    r_gone : list (list nat * list nat) }.
  Definition adds_v (l : list (T * T)) : list (gcall T) := map (fun b => GAddVar (fst b) (snd b)) l.
  Definition adds_c (l : list (bool * aff T)) : list (gcall T) := map (fun c => GAddCnt (fst c) (snd c)) l.
  Definition solves (n : nat) (l : list (list T * list T * list T)) : list (gcall T) :=
    flat_map (fun b => [GSetBounds (seq 0 n) (fst (fst b)) (snd (fst b)); GOptimize (snd b)]) l.
  Definition begin_round (n : nat) (r : round) : list (gcall T) :=
    adds_v (r_vars r) ++ [GUpdate] ++ adds_c (r_cnts r) ++ [GUpdate; GSetQuad (r_obj r)] ++ solves n (r_solves r).
  Definition end_round (r : round) : list (gcall T) := flat_map (fun g => [GRemoveCnts (fst g); GRemoveVars (snd g)]) (r_gone r).
  (** the problem's own variables (OptProb::createVariables, modeling.cpp 180-197) and linear
      constraints (243-249) *)
  Definition setup (vars : list (T * T)) (cnts : list (bool * aff T)) : list (gcall T) := adds_v vars ++ [GUpdate] ++ adds_c cnts.
  Fixpoint rounds (n : nat) (l : list round) : list (gcall T) :=
    match l with [] => [] | r :: l => begin_round n r ++ end_round r ++ rounds n l end.

  (** expressions over the [n] variables of the problem and the [m] variables that follow the [k]-th *)
  Definition speaks (n k m v : nat) : Prop := v < n \/ k <= v < k + m.
  Definition round_ok (n k kc : nat) (r : round) : Prop :=
    Forall (fun c => wf_aff (snd c) /\ Forall (speaks n k (length (r_vars r))) (a_vars (snd c))) (r_cnts r) /\
    wf_quad (r_obj r) /\ Forall (speaks n k (length (r_vars r))) (a_vars (q_aff (r_obj r)) ++ q_vars1 (r_obj r) ++ q_vars2 (r_obj r)) /\
    Forall (fun b => length (fst (fst b)) = n /\ length (snd (fst b)) = n) (r_solves r).
  (** the pass takes away exactly what it created *)
  Definition round_clean (k kc : nat) (r : round) : Prop :=
    (forall i, In i (flat_map fst (r_gone r)) <-> kc <= i < kc + length (r_cnts r)) /\
    (forall i, In i (flat_map snd (r_gone r)) <-> k <= i < k + length (r_vars r)).
  Fixpoint rounds_ok (n k kc : nat) (l : list round) : Prop :=
    match l with
    | [] => True
    | r :: l => round_ok n k kc r /\ round_clean k kc r /\ rounds_ok n (k + length (r_vars r)) (kc + length (r_cnts r)) l
    end.
  Definition made_v (l : list round) : nat := list_sum (map (fun r => length (r_vars r)) l).
  Definition made_c (l : list round) : nat := list_sum (map (fun r => length (r_cnts r)) l).
End Rounds.
Arguments round : clear implicits.
