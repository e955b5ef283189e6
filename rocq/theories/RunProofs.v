(** Proofs about runs of the SQP. *)
From Coq Require Import List ZArith Bool Arith Lia Reals Lra.
From Verif Require Import Num NumFacts RSums Common ScoExprModel ScoExprProofs ModelingModel ModelingSpec ModelingProofs BackendModel BackendSpec BackendProofs BackendProps GurobiSpec
  SolveModel SolveSpec SolveProofs SolveProps RoundSolveSpec RoundSolveProofs RoundSolveProps ScoOptModel ScoOptProofs MeritModel MeritSpec MeritProofs MeritProps RunModel RunSpec.
Import ListNotations.
Local Open Scope R_scope.

(** ** histories of calls *)
Lemma translate_made {A} (run : list R -> A) a : forall k b, translate run k (a ++ b) = translate run k a ++ translate run (fold_left made1 a k) b.
Proof. induction a as [|c a IH]; intros k b; [reflexivity|]. cbn [app translate fold_left]. rewrite IH, app_assoc. reflexivity. Qed.
Lemma made_adds_v (l : list (R * R)) : forall k, fold_left made1 (adds_v l) k = (k + length l)%nat.
Proof. unfold adds_v. induction l as [|b l IH]; intros k; cbn [map fold_left length]; [lia|]. rewrite IH. cbn [made1]. lia. Qed.
Lemma made_adds_c (l : list (bool * aff R)) : forall k, fold_left made1 (adds_c l) k = k.
Proof. unfold adds_c. induction l as [|b l IH]; intros k; cbn [map fold_left]; [reflexivity|]. rewrite IH. reflexivity. Qed.
Lemma made_solves n l : forall k, fold_left made1 (solves (T := R) n l) k = k.
Proof. unfold solves. induction l as [|b l IH]; intros k; cbn [flat_map app fold_left]; [reflexivity|]. rewrite IH. reflexivity. Qed.
Lemma made_end (r : round R) k : fold_left made1 (end_round r) k = k.
Proof. unfold end_round. revert k. induction (r_gone r) as [|b l IH]; intros k; cbn [flat_map app fold_left]; [reflexivity|]. rewrite IH. reflexivity. Qed.
Lemma made_begin n (r : round R) k : fold_left made1 (begin_round n r) k = (k + length (r_vars r))%nat.
Proof. unfold begin_round. rewrite !fold_left_app, made_adds_v. cbn [fold_left made1]. rewrite made_adds_c. apply made_solves. Qed.
Lemma made_rounds n (l : list (round R)) : forall k, fold_left made1 (rounds n l) k = (k + made_v l)%nat.
Proof.
  induction l as [|r l IH]; intros k; [unfold made_v; cbn; lia|]. cbn [rounds]. rewrite !fold_left_app, made_begin, made_end, IH. unfold made_v. cbn [map list_sum fold_right]. unfold list_sum. lia.
Qed.
Lemma made_setup (vars : list (R * R)) cnts k : fold_left made1 (setup vars cnts) k = (k + length vars)%nat.
Proof. unfold setup. rewrite !fold_left_app, made_adds_v. cbn [fold_left made1]. apply made_adds_c. Qed.
Lemma rounds_snoc n (l : list (round R)) r : rounds n (l ++ [r]) = rounds n l ++ begin_round n r ++ end_round r.
Proof. induction l as [|r' l IH]; cbn [app rounds]; [rewrite app_nil_r; reflexivity|]. rewrite IH, <- !app_assoc. reflexivity. Qed.
Lemma pass_rounds_snoc inf (p : cpass R) ps : forall k kc, pass_rounds inf k kc (ps ++ [p]) =
  pass_rounds inf k kc ps ++ [pass_round inf (k + made_v (pass_rounds inf k kc ps)) (kc + made_c (pass_rounds inf k kc ps)) p].
Proof.
  induction ps as [|q ps IH]; intros k kc; cbn [app pass_rounds].
  - unfold made_v, made_c. cbn. rewrite !Nat.add_0_r. reflexivity.
  - rewrite IH. cbn [app]. f_equal. f_equal. f_equal. unfold made_v, made_c. cbn [map list_sum fold_right]. unfold list_sum. f_equal; lia.
Qed.
Lemma before_snoc inf vars cnts ps p : before inf vars cnts (ps ++ [p]) = before inf vars cnts ps ++ [present inf vars cnts ps p].
Proof. unfold before, present, created. apply pass_rounds_snoc. Qed.
Lemma created_snoc inf vars cnts ps p : created inf vars cnts (ps ++ [p]) = (created inf vars cnts ps + length (r_vars (present inf vars cnts ps p)))%nat.
Proof. unfold created at 1. rewrite before_snoc. unfold made_v. rewrite map_app, list_sum_app. cbn. unfold created, made_v. lia. Qed.

(** the same pass with other QPs *)
Definition with_solves (p : cpass R) l : cpass R := {| p_costs := p_costs p; p_cnts := p_cnts p; p_mu := p_mu p; p_solves := l |}.
Lemma present_solves inf vars cnts ps p l : present inf vars cnts ps (with_solves p l) = cut (present inf vars cnts ps p) l.
Proof.
  unfold present, pass_round. change (pass_objs (created inf vars cnts ps) (with_solves p l)) with (pass_objs (created inf vars cnts ps) p).
  destruct (pass_objs _ p) as [[m os1] os2]. reflexivity.
Qed.
Lemma all_some_map {A} (l : list A) : all_some (map Some l) = Some l.
Proof. induction l as [|a l IH]; [reflexivity|]. cbn. rewrite IH. reflexivity. Qed.

(** ** the libraries *)
Lemma l_steps_app inf lib k s a b : l_steps inf lib k s (a ++ b) = obind (l_steps inf lib k s a) (fun s => l_steps inf lib (fold_left made1 a k) s b).
Proof. destruct lib; cbn [l_steps]; rewrite translate_made; [apply osqp_steps_app|apply qpoases_steps_app|apply bpmpd_steps_app]. Qed.
Lemma l_steps_optimize inf lib k s name : l_steps inf lib k s [GOptimize name] = obind (l_optimize inf lib (length name) s) (fun r => Ok (fst r)).
Proof.
  destruct lib; cbn [l_steps l_optimize translate tr1 app].
  - cbn [osqp_steps osqp_step]. destruct (osqp_optimize _ _ _ _ _ _); reflexivity.
  - cbn [qpoases_steps qpoases_step]. destruct (qpoases_optimize _ _ _) as [[]| |]; reflexivity.
  - cbn [bpmpd_steps bpmpd_step]. destruct (bpmpd_optimize _ _ _); reflexivity.
Qed.
Lemma l_best inf eps delta lib vars cnts ps p l0 lo hi name l2 :
  sqp_ok inf vars cnts ps p -> p_solves p = l0 ++ (lo, hi, name) :: l2 -> honest inf eps delta lib ->
  exists s s' st, l_steps inf lib 0 (l_empty lib) (sqp_calls inf vars cnts ps p l0 lo hi) = Ok s /\ l_optimize inf lib (length name) s = Ok (s', st) /\
    (st = CvxSolved -> exists vals, var_values (l_back lib s') (l_sol lib s') = map Some vals /\ length (firstn (length vars) vals) = length vars /\
       best_step inf eps delta cnts lo hi p (firstn (length vars) vals)) /\
    (able inf lib (length name) -> (exists z, length z = length vars /\ best_step inf 0 0 cnts lo hi p z) -> st = CvxSolved).
Proof.
  intros A E HR. destruct lib as [sz warm solver|Q|solver]; cbn [honest able l_state l_empty l_steps l_optimize l_back l_sol] in *.
  - destruct (C131_osqp inf eps delta sz warm (fun name => solver (length name)) vars cnts ps p l0 lo hi name l2 A E (fun x => HR (length x))) as (s & s' & st & E1 & E2 & K1 & _ & K3).
    exists s, s', st. split; [exact E1|]. split; [exact E2|]. split; [exact K1|exact K3].
  - destruct (C131_qpoases Q inf eps delta vars cnts ps p l0 lo hi name l2 A E HR) as (s & s' & st & E1 & E2 & K1 & _ & K3).
    exists s, s', st. split; [exact E1|]. split; [rewrite E2; reflexivity|]. split; [exact K1|]. intros [Ab Np]. apply (K3 Ab). intros sp _. left. apply Np.
  - destruct (C131_bpmpd inf eps delta (fun name => solver (length name)) vars cnts ps p l0 lo hi name l2 A E (fun x => HR (length x))) as (s & s' & st & E1 & E2 & K1 & _ & K3).
    exists s, s', st. split; [exact E1|]. split; [exact E2|]. split; [exact K1|exact K3].
Qed.
Lemma l_merit inf eps delta lib vars cnts ps p l0 lo hi name l2 s s' vals :
  sqp_ok inf vars cnts ps p -> p_solves p = l0 ++ (lo, hi, name) :: l2 -> honest inf eps delta lib ->
  l_steps inf lib 0 (l_empty lib) (sqp_calls inf vars cnts ps p l0 lo hi) = Ok s -> l_optimize inf lib (length name) s = Ok (s', CvxSolved) ->
  var_values (l_back lib s') (l_sol lib s') = map Some vals ->
  fair_merit inf eps delta cnts lo hi p (firstn (length vars) vals) (model_merit (l_back lib s') (created inf vars cnts ps) p vals).
Proof.
  intros A E HR E1 E2 V. destruct lib as [sz warm solver|Q|solver]; cbn [honest l_state l_empty l_steps l_optimize l_back l_sol] in *.
  - exact (C132_osqp inf eps delta sz warm (fun name => solver (length name)) vars cnts ps p l0 lo hi name l2 s s' vals A E (fun x => HR (length x)) E1 E2 V).
  - apply (C132_qpoases Q inf eps delta vars cnts ps p l0 lo hi name l2 s s' vals A E HR E1); [|exact V]. destruct (qpoases_optimize Q inf s) as [[[t t']|]| |]; try discriminate. cbn [obind] in E2. congruence.
  - exact (C132_bpmpd inf eps delta (fun name => solver (length name)) vars cnts ps p l0 lo hi name l2 s s' vals A E (fun x => HR (length x)) E1 E2 V).
Qed.

(** ** the world of a run *)
Section World.
  Context {C : Type} (inf eps delta : R) (lib : library) (F : prob) (x0 : list R).
  Local Notation n := (length (f_vars F)).
  Local Notation Cr := (created inf (f_vars F) (f_lin F)).
  Hypothesis OK : prob_ok inf eps F x0.
  Hypothesis HR : honest inf eps delta lib.

  Definition passes (w : world (C := C) lib) : list (cpass R) := w_past w ++ match w_now w with Some p => [p] | None => [] end.
  Definition calls_so_far (w : world (C := C) lib) : list (gcall R) :=
    setup (f_vars F) (f_lin F) ++ rounds n (before inf (f_vars F) (f_lin F) (w_past w)) ++ match w_now w with Some p => begin_round n (w_round inf F w p) | None => [] end.
  Definition wsteps (cs : list (gcall R)) : outcome (l_state lib) := l_steps inf lib 0 (l_empty lib) cs.
  Definition winv (w : world lib) : Prop := Forall (pass_ok inf n) (passes w) /\ w_model w = wsteps (calls_so_far w) /\ exists m, w_model w = Ok m.

  Lemma made_so_far w : fold_left made1 (calls_so_far w) 0%nat = w_made inf F w.
  Proof using.
    unfold calls_so_far, w_made. rewrite !fold_left_app, made_setup, made_rounds. unfold created. destruct (w_now w) as [p|]; [rewrite made_begin|cbn]; lia.
  Qed.
  Lemma w_do_model w cs : w_model w = wsteps (calls_so_far w) -> w_model (w_do inf lib F w cs) = wsteps (calls_so_far w ++ cs).
  Proof using. intros E. unfold w_do. cbn [w_model]. rewrite E. unfold wsteps. rewrite l_steps_app, made_so_far. reflexivity. Qed.
  Lemma wsteps_prefix a b m : wsteps (a ++ b) = Ok m -> exists m', wsteps a = Ok m'.
  Proof using. unfold wsteps. rewrite l_steps_app. destruct (l_steps _ _ _ _ _); cbn [obind]; [eauto|discriminate|discriminate]. Qed.
  Lemma with_solves_ok p l : pass_ok inf n p -> Forall (fun b : list R * list R * list R => length (fst (fst b)) = n /\ length (snd (fst b)) = n) l -> pass_ok inf n (with_solves p l).
  Proof using. intros (A & B & D & E & _) G. split; [exact A|]. split; [exact B|]. split; [exact D|]. split; [exact E|exact G]. Qed.
  Lemma sqp_ok_of ps p : Forall (pass_ok inf n) ps -> pass_ok inf n p -> sqp_ok inf (f_vars F) (f_lin F) ps p.
  Proof using OK. intros A B. destruct OK as (O1 & _ & _ & _ & O2 & _). split; [exact O1|]. split; [exact O2|]. constructor; assumption. Qed.

  (** a new pass can always be set up *)
  Lemma begin_ok ps p : Forall (pass_ok inf n) ps -> pass_ok inf n p -> p_solves p = [] ->
    exists m, wsteps (setup (f_vars F) (f_lin F) ++ rounds n (before inf (f_vars F) (f_lin F) ps) ++ begin_round n (present inf (f_vars F) (f_lin F) ps p)) = Ok m.
  Proof using OK HR.
    intros A B Es. destruct OK as (_ & L1 & L2 & _).
    assert (B' : pass_ok inf n (with_solves p [(f_lb F, f_ub F, [])])) by (apply with_solves_ok; [exact B|]; constructor; [split; assumption|constructor]).
    destruct (l_best inf eps delta lib (f_vars F) (f_lin F) ps _ [] (f_lb F) (f_ub F) [] [] (sqp_ok_of ps _ A B') eq_refl HR) as (s & s' & st & E1 & _).
    unfold sqp_calls, up_to, to_solve in E1. rewrite present_solves in E1. cbn [cut r_vars r_cnts r_obj] in E1.
    set (r := present inf (f_vars F) (f_lin F) ps p) in *. assert (Er : r_solves r = []) by (unfold r, present, pass_round; destruct (pass_objs _ p) as [[? ?] ?]; exact Es).
    apply (wsteps_prefix _ [GSetBounds (seq 0 n) (f_lb F) (f_ub F)] s). unfold wsteps. rewrite <- E1. f_equal. unfold begin_round. rewrite Er. unfold solves. cbn [flat_map].
    rewrite <- !app_assoc. reflexivity.
  Qed.
  Lemma first_inv c : winv (first_world inf lib F c).
  Proof using OK HR.
    split; [constructor|]. split.
    - unfold calls_so_far. cbn [first_world w_model w_past w_now before pass_rounds rounds app]. rewrite app_nil_r. reflexivity.
    - set (p := {| p_costs := []; p_cnts := []; p_mu := []; p_solves := [] |} : cpass R).
      destruct (begin_ok [] p) as (m & E); [constructor| |reflexivity|].
      + split; [constructor|]. split; [constructor|]. split; [reflexivity|]. split; constructor.
      + apply wsteps_prefix in E as (m' & E). exists m'. exact E.
  Qed.
  Lemma first_parts c : passes (first_world inf lib F c) = [] /\ w_count (first_world inf lib F c) = 0%nat.
  Proof using. split; reflexivity. Qed.

  Lemma convexify_inv w x mu : winv w -> length x = n -> visited inf eps F x0 x -> length mu = f_ncnt F -> Forall (fun m => 0 <= m) mu ->
    let w' := w_convexify inf lib F w x mu in winv w' /\ w_now w' = Some (convexified F mu x) /\ w_count w' = w_count w.
  Proof using OK HR.
    intros (A & E & m & Em) Lx Vx Lm Hm. cbv zeta.
    assert (Pk : pass_ok inf n (convexified F mu x)).
    { pose proof OK as (_ & _ & _ & _ & _ & O). destruct (O x Lx Vx) as (_ & O2 & _ & O4 & O5). split; [exact O4|]. split; [exact O5|]. split; [cbn; congruence|]. split; [exact Hm|constructor]. }
    (* the old pass is over *)
    set (w1 := match w_now w with None => w | Some p => with_now (w_do inf lib F w (end_round (w_round inf F w p))) (w_past w ++ [p]) None end).
    assert (E1 : w_model w1 = wsteps (calls_so_far w1) /\ w_now w1 = None /\ Forall (pass_ok inf n) (w_past w1) /\ w_count w1 = w_count w).
    { unfold w1. destruct (w_now w) as [p|] eqn:En.
      - unfold passes in A. rewrite En in A. split; [|split; [reflexivity|split; [exact A|reflexivity]]]. cbn [with_now w_model].
        rewrite w_do_model by exact E. f_equal. unfold calls_so_far. rewrite En. cbn [with_now w_past w_now]. rewrite before_snoc, rounds_snoc, app_nil_r, <- !app_assoc. reflexivity.
      - unfold passes in A. rewrite En, app_nil_r in A. split; [exact E|]. split; [exact En|]. split; [exact A|reflexivity]. }
    destruct E1 as (E1 & N1 & A1 & C1). change (w_convexify inf lib F w x mu) with
      (with_now (w_do inf lib F w1 (adds_v (r_vars (w_round inf F w1 (convexified F mu x))) ++ [GUpdate] ++ adds_c (r_cnts (w_round inf F w1 (convexified F mu x))) ++
         [GUpdate; GSetQuad (r_obj (w_round inf F w1 (convexified F mu x)))])) (w_past w1) (Some (convexified F mu x))).
    destruct (begin_ok (w_past w1) _ A1 Pk eq_refl) as (m' & Eb).
    assert (Er : r_solves (present inf (f_vars F) (f_lin F) (w_past w1) (convexified F mu x)) = []) by (unfold present, pass_round; destruct (pass_objs _ _) as [[? ?] ?]; reflexivity).
    set (w2 := with_now _ _ _). assert (E2 : w_model w2 = wsteps (calls_so_far w2)).
    { unfold w2. cbn [with_now w_model]. rewrite w_do_model by exact E1. f_equal. unfold calls_so_far. cbn [with_now w_past w_now]. rewrite N1, app_nil_r, <- !app_assoc. f_equal. f_equal.
      unfold begin_round, w_round. cbn [with_now w_past]. rewrite Er. unfold solves. cbn [flat_map app]. rewrite ?app_nil_r. reflexivity. }
    split; [|split; [reflexivity|exact C1]]. split; [|split].
    - unfold passes, w2. cbn [with_now w_past w_now]. apply Forall_app. split; [exact A1|]. constructor; [exact Pk|constructor].
    - exact E2.
    - exists m'. rewrite E2. exact Eb.
  Qed.

  Definition same_pass (p q : cpass R) : Prop := p_costs p = p_costs q /\ p_cnts p = p_cnts q /\ p_mu p = p_mu q.
  Lemma boxes_len x box : length x = n -> length (box_lo (f_lb F) (f_ub F) x box) = n /\ length (box_hi (f_lb F) (f_ub F) x box) = n.
  Proof using OK. intros L. destruct OK as (_ & L1 & L2 & _). unfold box_lo, box_hi, trust_boxes. rewrite !map_length, !combine_length. split; lia. Qed.
  Lemma qp_facts w x box p : winv w -> w_now w = Some p -> length x = n ->
    exists w' sol p', w_qp inf lib (w_setbox inf lib F w x box) = (w', sol) /\ winv w' /\ w_now w' = Some p' /\ same_pass p p' /\ w_count w' = S (w_count w) /\
      (forall vals, sol = Some vals -> length (firstn n vals) = n /\
         best_step inf eps delta (f_lin F) (box_lo (f_lb F) (f_ub F) x box) (box_hi (f_lb F) (f_ub F) x box) p (firstn n vals) /\
         length (w_mviols w' vals) = length (p_cnts p) /\
         fair_merit inf eps delta (f_lin F) (box_lo (f_lb F) (f_ub F) x box) (box_hi (f_lb F) (f_ub F) x box) p (firstn n vals) (omerit_of (w_mcosts inf F w' vals) (w_mviols w' vals) (p_mu p))) /\
      (able inf lib (w_count w) -> (exists z, length z = n /\ best_step inf 0 0 (f_lin F) (box_lo (f_lb F) (f_ub F) x box) (box_hi (f_lb F) (f_ub F) x box) p z) ->
       exists vals, sol = Some vals).
  Proof using OK HR.
    intros (A & E & m & Em) En Lx. destruct (boxes_len x box Lx) as [B1 B2]. set (lo := box_lo _ _ _ _) in *. set (hi := box_hi _ _ _ _) in *.
    unfold passes in A. rewrite En in A. apply Forall_app in A as [A1 A2]. inversion_clear A2 as [|? ? Pk _].
    set (name := repeat 0 (w_count w)). set (p' := with_solves p (p_solves p ++ [(lo, hi, name)])).
    assert (Pk' : pass_ok inf n p').
    { apply with_solves_ok; [exact Pk|]. apply Forall_app. split; [apply Pk|]. constructor; [split; assumption|constructor]. }
    destruct (l_best inf eps delta lib (f_vars F) (f_lin F) (w_past w) p' (p_solves p) lo hi name [] (sqp_ok_of _ _ A1 Pk') eq_refl HR) as (s & s' & st & E1 & E2 & K1 & K3).
    assert (En' : length name = w_count w) by apply repeat_length. rewrite En' in E2, K3.
    set (w2 := w_setbox inf lib F w x box).
    assert (M2 : w_model w2 = Ok s).
    { rewrite <- E1. unfold w2, w_setbox. cbn [with_box w_model]. rewrite w_do_model by exact E. unfold wsteps. f_equal. unfold calls_so_far, sqp_calls, up_to. rewrite En, <- !app_assoc. f_equal. f_equal.
      unfold p'. rewrite present_solves. unfold w_round, begin_round, to_solve. cbn [cut r_vars r_cnts r_obj].
      replace (r_solves (present inf (f_vars F) (f_lin F) (w_past w) p)) with (p_solves p) by (unfold present, pass_round; destruct (pass_objs _ _) as [[? ?] ?]; reflexivity).
      rewrite <- !app_assoc. reflexivity. }
    assert (Inv : forall mo, mo = Ok s' -> winv (w_solved w2 mo) /\ w_now (w_solved w2 mo) = Some p').
    { intros mo ->. assert (N : w_now (w_solved w2 (Ok s')) = Some p') by (unfold w2, w_solved, w_setbox; cbn [w_now with_box w_do w_box w_count fst snd]; rewrite En; reflexivity).
      split; [|exact N]. split; [|split].
      - unfold passes. rewrite N. apply Forall_app. split; [exact A1|]. constructor; [exact Pk'|constructor].
      - cbn [w_solved w_model]. unfold calls_so_far. rewrite N. change (w_round inf F (w_solved w2 (Ok s')) p') with (present inf (f_vars F) (f_lin F) (w_past w) p').
        change (w_past (w_solved w2 (Ok s'))) with (w_past w).
        assert (Eh : setup (f_vars F) (f_lin F) ++ rounds n (before inf (f_vars F) (f_lin F) (w_past w)) ++ begin_round n (present inf (f_vars F) (f_lin F) (w_past w) p') =
                     sqp_calls inf (f_vars F) (f_lin F) (w_past w) p' (p_solves p) lo hi ++ [GOptimize name]).
        { unfold p', sqp_calls, up_to. rewrite present_solves, cut_round, <- !app_assoc. reflexivity. }
        rewrite Eh. unfold wsteps. rewrite l_steps_app, E1. cbn [obind]. rewrite l_steps_optimize, En', E2. reflexivity.
      - exists s'. reflexivity. }
    unfold w_qp. rewrite M2. cbn [obind]. change (w_count w2) with (w_count w). rewrite E2. destruct (Inv _ eq_refl) as [I1 I2].
    assert (Same : same_pass p p') by (split; [reflexivity|split; reflexivity]).
    destruct st.
    - destruct (K1 eq_refl) as (vals & V & Lv & Bs). rewrite V, all_some_map. exists (w_solved w2 (Ok s')), (Some vals), p'.
      split; [reflexivity|]. split; [exact I1|]. split; [exact I2|]. split; [exact Same|]. split; [reflexivity|]. split; [|eauto].
      intros vs [= <-]. split; [exact Lv|]. split; [exact Bs|]. assert (Ev : w_mviols (w_solved w2 (Ok s')) vals = model_viols (l_back lib s') (p_cnts p') vals) by (unfold w_mviols; rewrite I2; reflexivity).
      split; [rewrite Ev; unfold model_viols; rewrite map_length; reflexivity|].
      rewrite <- En' in E2. pose proof (l_merit inf eps delta lib (f_vars F) (f_lin F) (w_past w) p' (p_solves p) lo hi name [] s s' vals (sqp_ok_of _ _ A1 Pk') eq_refl HR E1 E2 V) as Fm.
      rewrite Ev. unfold w_mcosts. rewrite I2. exact Fm.
    - exists (w_solved w2 (Ok s')), None, p'. split; [reflexivity|]. split; [exact I1|]. split; [exact I2|]. split; [exact Same|]. split; [reflexivity|]. split; [discriminate|].
      intros Ab Ex. specialize (K3 Ab Ex). discriminate.
    - exists (w_solved w2 (Ok s')), None, p'. split; [reflexivity|]. split; [exact I1|]. split; [exact I2|]. split; [exact Same|]. split; [reflexivity|]. split; [discriminate|].
      intros Ab Ex. specialize (K3 Ab Ex). discriminate.
  Qed.
End World.

(** ** the loops *)
Lemma near_widen inf eps l l' u u' v : l' <= l -> u <= u' -> near inf eps l u v -> near inf eps l' u' v.
Proof. unfold near. intros A B [[H|H] [K|K]]; (split; [try (left; lra); right; lra|try (left; lra); right; lra]). Qed.
Lemma box_in lb ub x box i : length lb = length x -> length ub = length x -> (i < length x)%nat ->
  nth i lb 0 <= nth i (box_lo lb ub x box) 0 /\ nth i (box_hi lb ub x box) 0 <= nth i ub 0.
Proof.
  intros L1 L2 Hi. unfold box_lo, box_hi, trust_boxes. rewrite !map_map. assert (Hl : (i < length (combine (combine lb ub) x))%nat) by (rewrite !combine_length; lia).
  rewrite !(nth_map_in _ _ _ _ ((0, 0), 0)) by exact Hl. rewrite combine_nth by (rewrite combine_length; lia). rewrite combine_nth by lia. cbn [fst snd].
  unfold trust_box1. cbn [fst snd]. rewrite nmax_R, nmin_R. split; [apply Rmax_r|apply Rmin_r].
Qed.
Lemma allowed_limits inf eps F x0 x box z : prob_ok inf eps F x0 -> length x = length (f_vars F) ->
  allowed inf eps (f_lin F) (box_lo (f_lb F) (f_ub F) x box) (box_hi (f_lb F) (f_ub F) x box) z -> keeps inf eps F z.
Proof.
  intros OK Lx [A B]. split; [exact A|]. intros i Hi. destruct (boxes_len inf eps F x0 OK x box Lx) as [B1 B2]. destruct OK as (_ & L1 & L2 & _).
  destruct (box_in (f_lb F) (f_ub F) x box i) as [G1 G2]; [congruence|congruence|lia|]. eapply near_widen; [exact G1|exact G2|]. apply B. lia.
Qed.
Lemma region_allowed inf eps F x0 x box z : prob_ok inf eps F x0 -> length x = length (f_vars F) -> 0 <= box -> (forall i, (i < length x)%nat -> nth i (f_lb F) 0 <= nth i x 0 <= nth i (f_ub F) 0) ->
  in_region inf F x box z -> allowed inf 0 (f_lin F) (box_lo (f_lb F) (f_ub F) x box) (box_hi (f_lb F) (f_ub F) x box) z.
Proof.
  intros OK Lx Hb Hx (Lz & Hc & Hz). destruct (boxes_len inf eps F x0 OK x box Lx) as [B1 B2]. destruct OK as (_ & L1 & L2 & _). split.
  - intros c Hin. specialize (Hc c Hin). unfold cnt_near. destruct (fst c); lra.
  - intros i Hi. rewrite B1 in Hi. specialize (Hz i ltac:(lia)). specialize (Hx i ltac:(lia)). destruct Hz as [[Z1 Z2] Z3]. assert (Z4 : - box <= nth i z 0 - nth i x 0 <= box) by (split; unfold Rabs in Z3; destruct (Rcase_abs _); lra).
    unfold box_lo, box_hi, trust_boxes. rewrite !map_map. assert (Hl : (i < length (combine (combine (f_lb F) (f_ub F)) x))%nat) by (rewrite !combine_length; lia).
    rewrite !(nth_map_in _ _ _ _ ((0, 0), 0)) by exact Hl. rewrite combine_nth by (rewrite combine_length; lia). rewrite combine_nth by lia. cbn [fst snd].
    unfold trust_box1. cbn [fst snd]. rewrite nmax_R, nmin_R. set (xi := nclamp _ _ _). assert (Ex : xi = nth i x 0) by (unfold xi, nclamp; rnum; repeat rcase; lra).
    rewrite Ex. rnum. unfold near. split; right; [unfold Rmax; destruct (Rle_dec _ _); lra|unfold Rmin; destruct (Rle_dec _ _); lra].
Qed.
Lemma merit_omerit F mu x : omerit_of (f_costs F x) (f_viols F x) mu = merit F mu x.
Proof.
  unfold omerit_of, merit. rewrite vdot_rsum. apply (f_equal2 Rplus).
  - rewrite <- (map_id (f_costs F x)) at 1. apply vsum_R.
  - apply rsum_ext. intros [a b] _. cbn [fst snd]. apply Rmult_comm.
Qed.

Section Loop.
  Context {C : Type} (inf eps delta : R) (lib : library) (F : prob) (P : oparams R) (callback : C -> C) (clock : C -> C * R) (x0 : list R).
  Local Notation n := (length (f_vars F)).
  Local Notation E := (run_env inf lib F callback clock).
  Local Notation winv := (winv inf lib F).
  Hypothesis OK : prob_ok inf eps F x0.
  Hypothesis POK : params_ok P.
  Hypothesis HR : honest inf eps delta lib.

  Definition base (s : osst R (world (C := C) lib)) : Prop :=
    winv (o_world s) /\ length (o_x s) = n /\ length (o_merit s) = f_ncnt F /\ Forall (fun m => 0 <= m) (o_merit s) /\ visited inf eps F x0 (o_x s).
  Definition calm (s : osst R (world (C := C) lib)) : Prop := forall t, o_trace s <> OQP true :: t.
  Definition between (s : osst R (world lib)) : Prop := base s /\ ocoh E s /\ calm s.
  Definition after_tr (s : osst R (world lib)) : Prop := base s /\ ocoh' E s /\ calm s.
  Definition inside (s : osst R (world lib)) : Prop := after_tr s /\ exists p, w_now (o_world s) = Some p /\ same_pass (convexified F (o_merit s) (o_x s)) p.
  Definition little_gain (s : osst R (world (C := C) lib)) : Prop :=
    omin_trust_box_size P <= o_box s /\
    exists x m, length x = n /\ fair_merit inf eps delta (f_lin F) (box_lo (f_lb F) (f_ub F) (o_x s) (o_box s)) (box_hi (f_lb F) (f_ub F) (o_x s) (o_box s)) (convexified F (o_merit s) (o_x s)) x m /\
      (merit F (o_merit s) (o_x s) - m < omin_approx_improve P \/ (merit F (o_merit s) (o_x s) - m) / merit F (o_merit s) (o_x s) < omin_approx_improve_frac P).
  Definition stopped (s : osst R (world lib)) : Prop := base s /\ ocoh' E s /\ little_gain s.

  Lemma same_fair p q cnts lo hi x m : same_pass q p -> fair_merit inf eps delta cnts lo hi p x m -> fair_merit inf eps delta cnts lo hi q x m.
  Proof using. intros (A & B & D). unfold fair_merit, convex_merit, cost_weight, cnt_weight. rewrite A, B, D. exact (fun H => H). Qed.
  Lemma inside_body f s : inside s -> omin_trust_box_size P <= o_box s -> exists x, otr_body P E f s = Ok x /\
    match x with XRetry _ s' => inside s' | XBreak s' => after_tr s' | XPenalty s' => stopped s' | XFailed s' => after_tr s' end.
  Proof using OK HR.
    intros [((Iw & Lx & Lm & Hm & Gx) & Co & Ca) (p & En & Sp)] Hbox. unfold otr_body. cbn [o_world with_oworld o_setbox o_qp run_env].
    destruct (qp_facts inf eps delta lib F x0 OK HR (o_world s) (o_x s) (o_box s) p Iw En Lx) as (w' & sol & p' & Eq & Iw' & En' & Sp' & _ & K & _).
    rewrite Eq. pose proof Co as (Co1 & Co2 & Co3). cbn [o_costs o_viols run_env] in Co1, Co2. destruct sol as [vals|].
    - destruct (K vals eq_refl) as (Lv & Bs & Lmv & Fm). assert (Ln : (n <= length vals)%nat) by (rewrite firstn_length in Lv; lia).
      destruct Sp as (Sp1 & Sp2 & Sp3). pose proof OK as (_ & _ & _ & _ & _ & O). pose proof (O (o_x s) Lx Gx) as (O1 & O2 & _).
      cbn [o_x o_cnt_viols o_merit o_cost_vals with_counts with_oworld oemit o_world o_nfe o_nqp o_box o_mcosts o_mviols o_costs o_viols run_env].
      rewrite Lx. set (nx := firstn n vals) in *. assert (Vn : visited inf eps F x0 nx) by (right; eapply allowed_limits; [exact OK|exact Lx|apply Bs]). pose proof (O nx Lv Vn) as (O3 & _). rewrite Co2, O1, O3, Lmv, <- Sp2, Lm. cbn [convexified p_cnts]. rewrite O2, Nat.eqb_refl.
      destruct (Nat.ltb_spec (length vals) n) as [X|_]; [lia|]. cbn [negb orb].
      rewrite <- Sp3 in Fm. cbn [convexified p_mu] in Fm. set (mm := omerit_of (w_mcosts inf F w' vals) (w_mviols w' vals) (o_merit s)) in *.
      assert (Gl : forall s', o_x s' = o_x s -> o_box s' = o_box s -> o_merit s' = o_merit s ->
        (merit F (o_merit s) (o_x s) - mm < omin_approx_improve P \/ (merit F (o_merit s) (o_x s) - mm) / merit F (o_merit s) (o_x s) < omin_approx_improve_frac P) -> little_gain s').
      { intros s' X1 X2 X3 X4. unfold little_gain. rewrite X1, X2, X3. split; [exact Hbox|]. exists nx, mm. split; [exact Lv|]. split; [|exact X4]. eapply same_fair; [|exact Fm]. split; [exact Sp1|]. split; [exact Sp2|exact Sp3]. }
      assert (Ba : forall s', o_world s' = w' -> o_x s' = o_x s -> o_merit s' = o_merit s -> base s').
      { intros s' X1 X2 X3. unfold base. rewrite X1, X2, X3. split; [exact Iw'|]. split; [exact Lx|]. split; [exact Lm|]. split; [exact Hm|exact Gx]. }
      rewrite Co1, !merit_omerit. rnum.
      destruct (Rltb _ (omin_approx_improve P)) eqn:T1.
      { eexists. split; [reflexivity|]. split; [apply Ba; reflexivity|]. split; [split; [exact Co1|split; [exact Co2|cbn; lia]]|]. apply Gl; try reflexivity. left. apply Rltb_true. exact T1. }
      destruct (Rltb _ (omin_approx_improve_frac P)) eqn:T2.
      { eexists. split; [reflexivity|]. split; [apply Ba; reflexivity|]. split; [split; [exact Co1|split; [exact Co2|cbn; lia]]|]. apply Gl; try reflexivity. right. apply Rltb_true. exact T2. }
      destruct (_ || _).
      + eexists. split; [reflexivity|]. cbn beta iota. split.
        * split; [apply Ba; reflexivity|]. split; [split; [exact Co1|split; [exact Co2|cbn; lia]]|]. intros t X. discriminate.
        * exists p'. split; [exact En'|]. cbn [o_merit o_x with_obox oemit with_counts with_oworld]. destruct Sp' as (Y1 & Y2 & Y3). split; [congruence|]. split; congruence.
      + eexists. split; [reflexivity|]. cbn beta iota. split; [|split].
        * unfold base. cbn. split; [exact Iw'|]. split; [exact Lv|]. split; [exact Lm|]. split; [exact Hm|]. right. eapply allowed_limits; [exact OK|exact Lx|]. apply Bs.
        * split; [reflexivity|]. split; [reflexivity|cbn; lia].
        * intros t X. discriminate.
    - assert (In : forall s', o_world s' = w' -> o_x s' = o_x s -> o_merit s' = o_merit s -> o_cost_vals s' = o_cost_vals s -> o_cnt_viols s' = o_cnt_viols s -> o_nfe s' = o_nfe s ->
        o_trace s' = OQP false :: o_trace s -> inside s').
      { intros s' X1 X2 X3 X4 X5 X6 X7. split; [split; [|split]|].
        - unfold base. rewrite X1, X2, X3. split; [exact Iw'|]. split; [exact Lx|]. split; [exact Lm|]. split; [exact Hm|exact Gx].
        - unfold ocoh'. rewrite X2, X4, X5, X6. split; [exact Co1|]. split; [exact Co2|exact Co3].
        - intros t. rewrite X7. discriminate.
        - exists p'. rewrite X1, X2, X3. split; [exact En'|]. destruct Sp as (Y1 & Y2 & Y3), Sp' as (Z1 & Z2 & Z3). split; [congruence|]. split; congruence. }
      destruct (_ <? _)%Z; [|destruct (_ =? _)%Z]; eexists; (split; [reflexivity|]); [apply In; reflexivity|apply In; reflexivity|]. apply In; reflexivity.
  Qed.

  Lemma inside_loop : forall fuel f s, inside s -> match otr_loop P E fuel f s with
    | Ok (XBreak s') | Ok (XFailed s') => after_tr s' | Ok (XPenalty s') => stopped s' | Ok (XRetry _ _) | Undef => False | NoFuel => True end.
  Proof using OK HR.
    induction fuel as [|fuel IH]; intros f s HI; cbn [otr_loop]; rnum; destruct (Rleb _ _) eqn:G; try exact I; try (apply HI).
    apply Rleb_true in G. destruct (inside_body f s HI G) as (x & -> & K). cbn [obind]. destruct x; try exact K. apply IH. exact K.
  Qed.
  Lemma prepare_in s : between s -> exists s', oprepare E s = Ok s' /\ inside s'.
  Proof using OK HR.
    intros ((Iw & Lx & Lm & Hm & Gx) & Co & Ca). unfold oprepare. set (s1 := with_oworld s _).
    assert (Iw1 : winv (o_world s1)) by exact Iw.
    assert (Os : exists s2, match o_cost_vals s1, o_cnt_viols s1 with
      | [], [] => if (o_nfe s1 =? 0)%Z then Ok (with_counts (oemit (with_point s1 (o_x s1) (o_costs E (o_x s1)) (o_viols E (o_x s1))) OEval) 1 (o_nqp s1)) else Undef
      | _, _ => Ok s1 end = Ok s2 /\ o_world s2 = o_world s1 /\ o_x s2 = o_x s /\ o_merit s2 = o_merit s /\ ocoh' E s2).
    { destruct Co as [(A & B & D & _)|(A & B & D)].
      - change (o_cost_vals s1) with (o_cost_vals s). change (o_cnt_viols s1) with (o_cnt_viols s). rewrite A, B. change (o_nfe s1) with (o_nfe s). rewrite D. cbn [Z.eqb].
        eexists. split; [reflexivity|]. split; [reflexivity|]. split; [reflexivity|]. split; [reflexivity|]. split; [reflexivity|]. split; [reflexivity|]. cbn. lia.
      - exists s1. split; [|split; [reflexivity|split; [reflexivity|split; [reflexivity|split; [exact A|split; [exact B|exact D]]]]]].
        change (o_cost_vals s1) with (o_cost_vals s). change (o_cnt_viols s1) with (o_cnt_viols s). pose proof OK as (_ & _ & _ & _ & _ & O). destruct (O (o_x s) Lx Gx) as (_ & _ & Ne & _).
        rewrite A, B. cbn [o_costs o_viols run_env]. destruct (f_costs F (o_x s)), (f_viols F (o_x s)); try reflexivity. destruct Ne; congruence. }
    destruct Os as (s2 & -> & W2 & X2 & M2 & C2). cbn [obind]. eexists. split; [reflexivity|].
    destruct (convexify_inv inf eps delta lib F x0 OK HR (o_world s2) (o_x s2) (o_merit s2)) as (I1 & I2 & _); [rewrite W2; exact Iw1|congruence|rewrite X2; exact Gx|congruence|rewrite M2; exact Hm|].
    split; [split; [|split]|].
    - unfold base. cbn. rewrite X2, M2. split; [rewrite <- X2, <- M2; exact I1|]. split; [exact Lx|]. split; [exact Lm|]. split; [exact Hm|exact Gx].
    - exact C2.
    - intros t X. discriminate.
    - eexists. split; [exact I2|]. split; [reflexivity|split; reflexivity].
  Qed.
  Lemma after_between s : after_tr s -> between s.
  Proof using. intros (A & B & D). split; [exact A|]. split; [right; exact B|exact D]. Qed.
  Lemma sqp_in fuel : forall k it s, between s -> match osqp_loop P E fuel k it s with
    | Ok (JPenalty s') => after_tr s' \/ stopped s' | Ok (JCleanup _ s') => between s' | NoFuel => True | Undef => False end.
  Proof using OK HR.
    induction k as [|k IH]; intros it s Hs; cbn [osqp_loop]; [exact I|]. cbn [o_clock run_env]. destruct (clock _) as [c t].
    assert (Hs1 : between (with_oworld s (with_rest (o_world s) c))).
    { destruct Hs as ((Iw & B) & Co & Ca). split; [split; [exact Iw|exact B]|]. split; [exact Co|exact Ca]. }
    destruct (nltb _ _); [exact Hs1|]. destruct (prepare_in _ Hs1) as (s2 & -> & H2). cbn [obind]. pose proof (inside_loop fuel 0 s2 H2) as K.
    destruct (otr_loop P E fuel 0 s2) as [[f s3|s3|s3|s3]| |]; cbn [obind]; try exact K; try contradiction.
    - destruct (nltb _ _); [left; exact K|]. destruct (_ >=? _)%Z; [apply after_between; exact K|]. apply IH. apply after_between. exact K.
    - right. exact K.
    - apply after_between. exact K.
  Qed.
  Lemma inflate_len v c : length (oinflate P v c) = length c.
  Proof using. revert c. induction v as [|x v IH]; intros [|y c]; cbn; auto. Qed.
  Lemma inflate_pos v : forall c, Forall (fun m => 0 <= m) c -> Forall (fun m => 0 <= m) (oinflate P v c).
  Proof using POK.
    destruct POK as [_ Hr]. induction v as [|x v IH]; intros c Hc; [destruct c; exact Hc|]. destruct c as [|y c]; [constructor|]. inversion_clear Hc. cbn [oinflate]. constructor; [|apply IH; assumption].
    destruct (nltb _ _); [|assumption]. rnum. apply Rmult_le_pos; assumption.
  Qed.
  Lemma adjust_in s : base s -> ocoh' E s -> exists s', oadjust P s = Ok s' /\ between s'.
  Proof using OK POK.
    intros (Iw & Lx & Lm & Hm & Gx) (Co1 & Co2 & Co3). cbn [o_costs o_viols run_env] in Co1, Co2. pose proof OK as (_ & _ & _ & _ & _ & O). pose proof (O (o_x s) Lx Gx) as (O1 & _). unfold oadjust. rewrite Co2, O1, Lm, Nat.eqb_refl. cbn [negb]. rewrite andb_false_r. eexists. split; [reflexivity|].
    split; [|split].
    - unfold base. cbn. split; [exact Iw|]. split; [exact Lx|]. split; [|split; [|exact Gx]].
      + destruct (oinflate_individually P); [rewrite inflate_len; exact Lm|rewrite map_length; exact Lm].
      + destruct (oinflate_individually P); [apply inflate_pos; exact Hm|]. destruct POK as [_ Hr]. apply Forall_map. eapply Forall_impl; [|exact Hm]. intros a Ha. rnum. apply Rmult_le_pos; assumption.
    - right. cbn. split; [exact Co1|]. split; [exact Co2|exact Co3].
    - intros t X. discriminate.
  Qed.
  Lemma merit_in fuel : forall k i s, between s -> match omerit_loop P E fuel k i s with
    | Ok (st, s') => between s' \/ (stopped s' /\ st = OPT_CONVERGED /\ ofeasible P s' = true) | NoFuel => True | Undef => False end.
  Proof using OK POK HR.
    induction k as [|k IH]; intros i s Hs; cbn [omerit_loop]; destruct (nltb _ _); try exact I; try (left; exact Hs).
    pose proof (sqp_in fuel fuel 1 s Hs) as K. destruct (osqp_loop P E fuel fuel 1 s) as [[s1|st s1]| |]; cbn [obind]; try exact K.
    - assert (Bo : base s1 /\ ocoh' E s1) by (destruct K as [(A & B & _)|(A & B & _)]; split; assumption).
      destruct (ofeasible P s1) eqn:Ef.
      + destruct K as [K|K]; [left; apply after_between; exact K|right]. split; [exact K|]. split; [reflexivity|exact Ef].
      + destruct (adjust_in s1) as (s2 & -> & H2); [apply Bo|apply Bo|]. cbn [obind]. apply IH. exact H2.
    - left. exact K.
  Qed.
  (** what an iteration with a solved QP does *)
  Definition decide (s : osst R (world lib)) (w' : world (C := C) lib) (x : list R) (m : R) : oexit (T := R) :=
    let s := oemit (with_counts (with_oworld s w') (o_nfe s) (o_nqp s + 1)) (OQP true) in
    let old := merit F (o_merit s) (o_x s) in let new := merit F (o_merit s) x in
    let s := with_counts s (o_nfe s + 1) (o_nqp s) in
    if Rltb (old - m) (omin_approx_improve P) then XPenalty s
    else if Rltb ((old - m) / old) (omin_approx_improve_frac P) then XPenalty s
    else if (Rltb (old - new) 0 || Rltb ((old - new) / (old - m)) (oimprove_ratio_threshold P))%bool
    then XRetry 0 (with_obox (oemit s OReject) (o_box s * otrust_shrink_ratio P))
    else XBreak (with_obox (with_point (oemit s (OAccept old new)) x (f_costs F x) (f_viols F x)) (o_box s * otrust_expand_ratio P)).
  Lemma body_solved s : inside s -> able inf lib (w_count (o_world s)) ->
    (exists z, length z = n /\ best_step inf 0 0 (f_lin F) (box_lo (f_lb F) (f_ub F) (o_x s) (o_box s)) (box_hi (f_lb F) (f_ub F) (o_x s) (o_box s)) (convexified F (o_merit s) (o_x s)) z) ->
    exists w' x m, length x = n /\ w_count w' = S (w_count (o_world s)) /\
      best_step inf eps delta (f_lin F) (box_lo (f_lb F) (f_ub F) (o_x s) (o_box s)) (box_hi (f_lb F) (f_ub F) (o_x s) (o_box s)) (convexified F (o_merit s) (o_x s)) x /\
      fair_merit inf eps delta (f_lin F) (box_lo (f_lb F) (f_ub F) (o_x s) (o_box s)) (box_hi (f_lb F) (f_ub F) (o_x s) (o_box s)) (convexified F (o_merit s) (o_x s)) x m /\
      otr_body P E 0 s = Ok (decide s w' x m).
  Proof using OK HR.
    intros [((Iw & Lx & Lm & Hm & Gx) & Co & Ca) (p & En & Sp)] Ab (z & Lz & Bz).
    destruct (qp_facts inf eps delta lib F x0 OK HR (o_world s) (o_x s) (o_box s) p Iw En Lx) as (w' & sol & p' & Eq & Iw' & En' & Sp' & Ct & K & K2).
    pose proof Co as (Co1 & Co2 & Co3). cbn [o_costs o_viols run_env] in Co1, Co2. destruct Sp as (Sp1 & Sp2 & Sp3).
    destruct K2 as (vals & ->); [exact Ab| |].
    { exists z. split; [exact Lz|]. revert Bz. unfold best_step, convex_merit, cost_weight, cnt_weight. rewrite <- Sp1, <- Sp2, <- Sp3. exact (fun H => H). }
    destruct (K vals eq_refl) as (Lv & Bs & Lmv & Fm). assert (Ln : (n <= length vals)%nat) by (rewrite firstn_length in Lv; lia).
    exists w', (firstn n vals), (omerit_of (w_mcosts inf F w' vals) (w_mviols w' vals) (o_merit s)).
    split; [exact Lv|]. split; [exact Ct|]. split.
    { revert Bs. unfold best_step, convex_merit, cost_weight, cnt_weight. rewrite <- Sp1, <- Sp2, <- Sp3. exact (fun H => H). }
    split.
    { rewrite <- Sp3 in Fm. eapply same_fair; [|exact Fm]. split; [exact Sp1|]. split; [exact Sp2|exact Sp3]. }
    unfold otr_body. cbn [o_world with_oworld o_setbox o_qp run_env]. rewrite Eq.
    pose proof OK as (_ & _ & _ & _ & _ & O). pose proof (O (o_x s) Lx Gx) as (O1 & O2 & _).
    cbn [o_x o_cnt_viols o_merit o_cost_vals with_counts with_oworld oemit o_world o_nfe o_nqp o_box o_mcosts o_mviols o_costs o_viols run_env].
    rewrite Lx. set (nx := firstn n vals) in *. assert (Vn : visited inf eps F x0 nx) by (right; eapply allowed_limits; [exact OK|exact Lx|apply Bs]). pose proof (O nx Lv Vn) as (O3 & _). rewrite Co2, O1, O3, Lmv, <- Sp2, Lm. cbn [convexified p_cnts]. rewrite O2, Nat.eqb_refl.
    destruct (Nat.ltb_spec (length vals) n) as [X|_]; [lia|]. cbn [negb orb]. rewrite Co1, !merit_omerit. rnum. unfold decide.
    cbn [o_x o_merit with_counts with_oworld oemit o_world o_nfe o_nqp o_box].
    destruct (Rltb _ (omin_approx_improve P)); [reflexivity|]. destruct (Rltb _ (omin_approx_improve_frac P)); [reflexivity|]. destruct (_ || _)%bool; reflexivity.
  Qed.
End Loop.
