(** * Proofs about the Gurobi backend *)
From Coq Require Import List ZArith Bool Arith Lia Reals Lra Sorted.
From Verif Require Import Num NumFacts RSums Common ScoExprModel ScoExprProofs EigenModel EigenProofs BackendModel BackendSpec BackendProofs GurobiModel GurobiSpec.
Import ListNotations.
Local Open Scope nat_scope.

(** ** positions *)
Lemma mem_In i l : mem i l = true <-> In i l.
Proof. unfold mem. rewrite existsb_exists. split; [intros (x & H1 & H2); apply Nat.eqb_eq in H2; subst; exact H1|intros H1; exists i; split; [exact H1|apply Nat.eqb_refl]]. Qed.
Lemma mem_app i a b : mem i (a ++ b) = (mem i a || mem i b)%bool.
Proof. apply existsb_app. Qed.
Fixpoint pos (ids : list nat) (id : nat) : nat := match ids with [] => 0 | a :: r => if a =? id then 0 else S (pos r id) end.
Lemma pos_nth ids id : In id ids -> nth_error ids (pos ids id) = Some id.
Proof.
  induction ids as [|a r IH]; intros Hin; [destruct Hin|]. cbn [pos]. destruct (Nat.eqb_spec a id); [subst; reflexivity|].
  destruct Hin as [Hin|Hin]; [congruence|]. cbn. auto.
Qed.
Lemma pos_at ids p id : NoDup ids -> nth_error ids p = Some id -> pos ids id = p.
Proof.
  revert p. induction ids as [|a r IH]; intros p N E; [destruct p; discriminate|]. inversion N as [|? ? N1 N2]; subst. destruct p as [|p]; cbn in *.
  - inversion E; subst. rewrite Nat.eqb_refl. reflexivity.
  - destruct (Nat.eqb_spec a id) as [->|]; [exfalso; apply N1; eapply nth_error_In; exact E|]. f_equal. auto.
Qed.
Lemma pos_app ids l id : In id ids -> pos (ids ++ l) id = pos ids id.
Proof.
  induction ids as [|a r IH]; intros Hin; [destruct Hin|]. cbn. destruct (Nat.eqb_spec a id); [reflexivity|].
  destruct Hin as [Hin|Hin]; [congruence|]. rewrite IH; auto.
Qed.
Lemma pos_lt ids id : In id ids -> pos ids id < length ids.
Proof. intros Hin. apply nth_error_Some. rewrite pos_nth by exact Hin. discriminate. Qed.

Section Keep.
  Variables (D : list nat) (P : nat -> bool).
  Lemma keep_map {A} (f : nat -> A) ids : forall k, (forall p id, nth_error ids p = Some id -> mem (k + p) D = negb (P id)) ->
    keep D k (map f ids) = map f (filter P ids).
  Proof.
    induction ids as [|a r IH]; intros k H1; [reflexivity|]. cbn [map keep filter].
    pose proof (H1 0 a eq_refl) as H2. rewrite Nat.add_0_r in H2. rewrite H2.
    assert (H3 : keep D (S k) (map f r) = map f (filter P r)). { apply IH. intros p id E. rewrite Nat.add_succ_comm. apply H1. exact E. }
    destruct (P a); cbn [negb map]; rewrite H3; reflexivity.
  Qed.
  Lemma keep_Forall2 {A B} (Q : A -> B -> Prop) (g : nat -> B) ids : forall k rows, (forall p id, nth_error ids p = Some id -> mem (k + p) D = negb (P id)) ->
    Forall2 Q rows (map g ids) -> Forall2 Q (keep D k rows) (map g (filter P ids)).
  Proof.
    induction ids as [|a r IH]; intros k rows H1 H2; inversion H2 as [|x y l l' Q1 Q2]; subst; [constructor|]. cbn [keep filter].
    pose proof (H1 0 a eq_refl) as H3. rewrite Nat.add_0_r in H3. rewrite H3.
    assert (H4 : Forall2 Q (keep D (S k) l) (map g (filter P r))). { apply IH; [|exact Q2]. intros p id E. rewrite Nat.add_succ_comm. apply H1. exact E. }
    destruct (P a); cbn [negb map]; [constructor|]; assumption.
  Qed.
  Lemma newidx_from ids : forall k p id, NoDup ids -> (forall p id, nth_error ids p = Some id -> mem (k + p) D = negb (P id)) ->
    nth_error ids p = Some id -> P id = true -> length (filter (fun i => negb (mem i D)) (seq k p)) = pos (filter P ids) id.
  Proof.
    induction ids as [|a r IH]; intros k p id N H1 E Hp; [destruct p; discriminate|]. inversion N as [|? ? N1 N2]; subst.
    pose proof (H1 0 a eq_refl) as H2. rewrite Nat.add_0_r in H2. destruct p as [|p]; cbn [seq filter nth_error] in *.
    - inversion E; subst. rewrite Hp. cbn. rewrite Nat.eqb_refl. reflexivity.
    - rewrite H2, negb_involutive. assert (H3 : length (filter (fun i => negb (mem i D)) (seq (S k) p)) = pos (filter P r) id).
      { apply IH; [exact N2| |exact E|exact Hp]. intros q i Eq1. rewrite Nat.add_succ_comm. apply H1. exact Eq1. }
      destruct (P a) eqn:Pa; [|exact H3]. cbn [length pos]. rewrite H3.
      destruct (Nat.eqb_spec a id) as [->|]; [exfalso; apply N1; eapply nth_error_In; exact E|reflexivity].
  Qed.
  Variable ids : list nat.
  Hypothesis N : NoDup ids.
  Hypothesis HD : forall p id, nth_error ids p = Some id -> mem p D = negb (P id).
  Lemma newidx_pos p id : nth_error ids p = Some id -> P id = true -> newidx D p = pos (filter P ids) id.
  Proof. intros E Hp. apply (newidx_from ids 0 p id); auto. Qed.
  Lemma mem_filter id : mem id (filter P ids) = (mem id ids && P id)%bool.
  Proof.
    apply eq_true_iff_eq. rewrite andb_true_iff, !mem_In, filter_In. reflexivity.
  Qed.
  Lemma mem_pos id : In id ids -> mem (pos ids id) D = negb (P id).
  Proof. intros Hin. apply HD. apply pos_nth. exact Hin. Qed.
  Lemma new_pos id : In id ids -> P id = true -> newidx D (pos ids id) = pos (filter P ids) id.
  Proof. intros Hin Hp. apply newidx_pos; [apply pos_nth; exact Hin|exact Hp]. Qed.
End Keep.

(** the terms of an expression in the columns [ids] *)
Definition terms1 (ids : list nat) (l : list (nat * R)) : list (nat * R) :=
  map (fun t => (pos ids (fst t), snd t)) (filter (fun t => mem (fst t) ids) l).
Definition terms2 (ids : list nat) (l : list (nat * nat * R)) : list (nat * nat * R) :=
  map (fun t => (pos ids (fst (fst t)), pos ids (snd (fst t)), snd t)) (filter (fun t => (mem (fst (fst t)) ids && mem (snd (fst t)) ids)%bool) l).
Lemma terms1_renum D P ids l : NoDup ids -> (forall p id, nth_error ids p = Some id -> mem p D = negb (P id)) ->
  renum1 D (terms1 ids l) = terms1 (filter P ids) l.
Proof.
  intros N HD. unfold terms1, renum1. induction l as [|[i c] l IH]; [reflexivity|]. cbn [filter fst]. rewrite mem_filter.
  destruct (mem i ids) eqn:M; cbn [andb]; [|exact IH]. cbn [map filter fst snd]. apply mem_In in M.
  rewrite (mem_pos D P ids HD i M), negb_involutive. destruct (P i) eqn:Pi; [|exact IH]. cbn [map fst snd].
  rewrite IH, (new_pos D P ids N HD i M Pi). reflexivity.
Qed.
Lemma terms2_renum D P ids l : NoDup ids -> (forall p id, nth_error ids p = Some id -> mem p D = negb (P id)) ->
  renum2 D (terms2 ids l) = terms2 (filter P ids) l.
Proof.
  intros N HD. unfold terms2, renum2. induction l as [|[[i j] c] l IH]; [reflexivity|]. cbn [filter fst snd]. rewrite !mem_filter.
  destruct (mem i ids) eqn:Mi; cbn [andb]; [|exact IH]. destruct (mem j ids) eqn:Mj; cbn [andb]; [|rewrite andb_false_r; exact IH].
  cbn [map filter fst snd]. apply mem_In in Mi, Mj.
  rewrite (mem_pos D P ids HD i Mi), (mem_pos D P ids HD j Mj), !negb_involutive. destruct (P i) eqn:Pi; cbn [andb]; [|exact IH].
  destruct (P j) eqn:Pj; [|exact IH]. cbn [map fst snd].
  rewrite IH, (new_pos D P ids N HD i Mi Pi), (new_pos D P ids N HD j Mj Pj). reflexivity.
Qed.
Lemma terms1_app ids id l : Forall (fun t => fst t <> id) l -> terms1 (ids ++ [id]) l = terms1 ids l.
Proof.
  intros F. unfold terms1. induction l as [|[i c] l IH]; [reflexivity|]. inversion F as [|? ? F1 F2]; subst. cbn [filter fst] in *.
  rewrite mem_app. cbn [mem existsb]. destruct (Nat.eqb_spec i id); [congruence|]. rewrite orb_false_r.
  destruct (mem i ids) eqn:M; [|auto]. cbn [map fst snd]. rewrite pos_app by (apply mem_In; exact M). rewrite IH by exact F2. reflexivity.
Qed.
Lemma terms2_app ids id l : Forall (fun t => fst (fst t) <> id /\ snd (fst t) <> id) l -> terms2 (ids ++ [id]) l = terms2 ids l.
Proof.
  intros F. unfold terms2. induction l as [|[[i j] c] l IH]; [reflexivity|]. inversion F as [|? ? [F1 F1'] F2]; subst. cbn [filter fst snd] in *.
  rewrite !mem_app. cbn [mem existsb]. destruct (Nat.eqb_spec i id); [congruence|]. destruct (Nat.eqb_spec j id); [congruence|]. rewrite !orb_false_r.
  destruct (mem i ids) eqn:M; cbn [andb]; [|auto]. destruct (mem j ids) eqn:M2; [|auto]. cbn [map fst snd].
  rewrite !pos_app by (apply mem_In; assumption). rewrite IH by exact F2. reflexivity.
Qed.
Lemma terms1_all ids vars cs : Forall (fun i => In i ids) vars -> combine (map (pos ids) vars) cs = terms1 ids (combine vars cs).
Proof.
  intros F. unfold terms1. revert cs. induction vars as [|v vars IH]; intros [|c cs]; try reflexivity. inversion F as [|? ? F1 F2]; subst.
  cbn [map combine filter fst]. rewrite (proj2 (mem_In v ids) F1). cbn [map fst snd]. rewrite IH by exact F2. reflexivity.
Qed.
Lemma terms2_all ids v1 v2 cs : Forall (fun i => In i ids) v1 -> Forall (fun i => In i ids) v2 ->
  combine (combine (map (pos ids) v1) (map (pos ids) v2)) cs = terms2 ids (combine (combine v1 v2) cs).
Proof.
  unfold terms2. revert v2 cs. induction v1 as [|a v1 IH]; intros [|b v2] [|c cs] F G; try reflexivity.
  inversion F as [|? ? F1 F2]; inversion G as [|? ? G1 G2]; subst.
  cbn [map combine filter fst snd]. rewrite (proj2 (mem_In a ids) F1), (proj2 (mem_In b ids) G1). cbn [andb map fst snd]. rewrite IH by assumption. reflexivity.
Qed.
Lemma terms1_lt ids l : Forall (fun t => fst t < length ids) (terms1 ids l).
Proof. apply Forall_map, Forall_forall. intros t Ht. apply filter_In in Ht as [_ Ht]. cbn. apply pos_lt, mem_In, Ht. Qed.

(** ** coefficients *)
Definition pairs (e : aff R) : list (nat * R) := combine (a_vars e) (a_coeffs e).
Definition pairs2 (q : quad R) : list (nat * nat * R) := combine (combine (q_vars1 q) (q_vars2 q)) (q_coeffs q).
Lemma assoc_sum_none i l : Forall (fun t => fst t <> i) l -> assoc_sum i l = 0%R.
Proof.
  induction l as [|t l IH]; intros F; [apply assoc_sum_nil|]. inversion F as [|? ? F1 F2]; subst. rewrite assoc_sum_cons, (IH F2).
  destruct (Nat.eqb_spec (fst t) i); [congruence|ring].
Qed.
Lemma assoc_sum_terms ids p id l : NoDup ids -> nth_error ids p = Some id -> assoc_sum p (terms1 ids l) = assoc_sum id l.
Proof.
  intros N E. unfold terms1. induction l as [|[i c] l IH]; [reflexivity|]. cbn [filter fst]. rewrite (assoc_sum_cons id). cbn [fst snd].
  destruct (mem i ids) eqn:M.
  - cbn [map fst snd]. rewrite assoc_sum_cons, IH. cbn [fst snd]. f_equal. apply mem_In in M.
    destruct (Nat.eqb_spec (pos ids i) p) as [Q|Q], (Nat.eqb_spec i id) as [W|W]; try reflexivity.
    + exfalso. pose proof (pos_nth ids i M) as Z. rewrite Q, E in Z. congruence.
    + exfalso. subst. apply Q. apply pos_at; assumption.
  - rewrite IH. destruct (Nat.eqb_spec i id) as [W|W]; [|ring]. subst. exfalso. apply nth_error_In, mem_In in E. congruence.
Qed.
Lemma assoc_renum D P ids p id l : NoDup ids -> (forall p id, nth_error ids p = Some id -> mem p D = negb (P id)) ->
  Forall (fun t => fst t < length ids) l -> nth_error ids p = Some id -> P id = true ->
  assoc_sum (pos (filter P ids) id) (renum1 D l) = assoc_sum p l.
Proof.
  intros N HD F E Hp. unfold renum1. induction l as [|[i c] l IH]; [reflexivity|]. inversion F as [|? ? F1 F2]; subst. specialize (IH F2).
  cbn [filter fst] in *. rewrite (assoc_sum_cons p). cbn [fst snd].
  destruct (nth_error ids i) as [j|] eqn:Ei; [|apply nth_error_None in Ei; lia]. rewrite (HD i j Ei), negb_involutive.
  destruct (P j) eqn:Pj.
  - cbn [map fst snd]. rewrite assoc_sum_cons, IH. cbn [fst snd]. f_equal. rewrite (newidx_pos D P ids N HD i j Ei Pj).
    assert (Hin1 : In j (filter P ids)) by (apply filter_In; split; [eapply nth_error_In; exact Ei|exact Pj]).
    assert (Hin2 : In id (filter P ids)) by (apply filter_In; split; [eapply nth_error_In; exact E|exact Hp]).
    destruct (Nat.eqb_spec (pos (filter P ids) j) (pos (filter P ids) id)) as [Q|Q], (Nat.eqb_spec i p) as [W|W]; try reflexivity.
    + exfalso. apply pos_nth in Hin1, Hin2. rewrite Q in Hin1. rewrite Hin1 in Hin2. inversion Hin2; subst.
      apply W. rewrite <- (pos_at ids i id N Ei). apply pos_at; assumption.
    + exfalso. subst. rewrite E in Ei. inversion Ei; subst. congruence.
  - rewrite IH. destruct (Nat.eqb_spec i p) as [W|W]; [|ring]. subst. rewrite E in Ei. inversion Ei; subst. congruence.
Qed.
Lemma renum_lt D P (ids : list nat) (l : list (nat * R)) : NoDup ids -> (forall p id, nth_error ids p = Some id -> mem p D = negb (P id)) ->
  Forall (fun t => fst t < length ids) l -> Forall (fun t => fst t < length (filter P ids)) (renum1 D l).
Proof.
  intros N HD F. unfold renum1. apply Forall_map, Forall_forall. intros t Ht. apply filter_In in Ht as [Ht M]. cbn. rewrite Forall_forall in F. specialize (F t Ht).
  cbn in F. destruct (nth_error ids (fst t)) as [j|] eqn:Ei; [|apply nth_error_None in Ei; lia]. rewrite (HD _ _ Ei), negb_involutive in M.
  rewrite (newidx_pos D P ids N HD _ j Ei M). apply pos_lt, filter_In. split; [eapply nth_error_In; exact Ei|exact M].
Qed.

(** ** what Gurobi holds *)
Definition row_ok (ids : list nat) (r : grow R) (c : cfact R) : Prop :=
  gr_ineq r = c_ineq c /\ gr_rhs r = (- a_const (c_expr c))%R /\ Forall (fun t => fst t < length ids) (gr_terms r) /\
  forall p id, nth_error ids p = Some id -> assoc_sum p (gr_terms r) = assoc_sum id (pairs (c_expr c)).
Definition qrow_ok (ids : list nat) (r : gqrow R) (q : quad R) : Prop :=
  gq_lin r = terms1 ids (pairs (q_aff q)) /\ gq_quad r = terms2 ids (pairs2 q) /\ gq_rhs r = (- a_const (q_aff q))%R.
Definition col_ok (h : ghist R) (id : nat) : gcol R :=
  {| gc_lo := v_lo (nth id (h_v h) no_v); gc_hi := v_hi (nth id (h_v h) no_v); gc_obj := assoc_sum id (pairs (q_aff (h_obj h))) |}.
Definition below (n : nat) (q : quad R) : Prop :=
  Forall (fun v => v < n) (a_vars (q_aff q)) /\ Forall (fun v => v < n) (q_vars1 q) /\ Forall (fun v => v < n) (q_vars2 q).
Record gok (g : grb R) (ids cids : list nat) (h : ghist R) : Prop := {
  k_cols : g_cols g = map (col_ok h) ids;
  k_ncols : g_ncols g <= length ids /\ forall p id, nth_error ids p = Some id -> (id < h_kv h <-> p < g_ncols g);
  k_delv : forall p id, nth_error ids p = Some id -> mem p (g_delv g) = v_gone (nth id (h_v h) no_v);
  k_nrows : g_nrows g <= length cids /\ forall p id, nth_error cids p = Some id -> (id < h_kc h <-> p < g_nrows g);
  k_delc : forall p id, nth_error cids p = Some id -> mem p (g_delc g) = c_gone (nth id (h_c h) no_c);
  k_rows : Forall2 (row_ok ids) (g_rows g) (map (fun id => nth id (h_c h) no_c) cids);
  k_qrows : Forall2 (qrow_ok ids) (g_qrows g) (h_q h);
  k_q : g_q g = terms2 ids (pairs2 (h_obj h));
  k_con : g_con g = a_const (q_aff (h_obj h));
  k_dv : Forall (fun i => i < g_ncols g) (g_delv g);
  k_dc : Forall (fun i => i < g_nrows g) (g_delc g) }.
Record gsim (s : gmodel R) (h : ghist R) : Prop := {
  s_v : heap_ok (gm_vreps s) (gm_vars s) (map v_gone (h_v h));
  s_c : heap_ok (gm_creps s) (gm_cnts s) (map c_gone (h_c h));
  s_deadv : forall id, id < length (h_v h) -> (In id (gm_vars s) <-> ~ In id (h_deadv h));
  s_deadc : forall id, id < length (h_c h) -> (In id (gm_cnts s) <-> ~ In id (h_deadc h));
  s_dv : forall id, In id (h_deadv h) -> id < length (h_v h);
  s_dc : forall id, In id (h_deadc h) -> id < length (h_c h);
  s_kv : h_kv h <= length (h_v h);
  s_kc : h_kc h <= length (h_c h);
  s_obj : below (length (h_v h)) (h_obj h);
  s_q : Forall (below (length (h_v h))) (h_q h);
  s_e : Forall (fun c => Forall (fun v => v < length (h_v h)) (a_vars (c_expr c))) (h_c h);
  s_g : gok (gm_grb s) (gm_vars s) (gm_cnts s) h }.

Lemma Forall2_map_l {A B C} (f : A -> B) (Q : B -> C -> Prop) l m : Forall2 (fun a c => Q (f a) c) l m -> Forall2 Q (map f l) m.
Proof. induction 1; constructor; assumption. Qed.
Lemma Forall2_mono {A B} (P Q : A -> B -> Prop) l m : (forall a b, P a b -> Q a b) -> Forall2 P l m -> Forall2 Q l m.
Proof. intros H1 H2. induction H2; constructor; auto. Qed.
Lemma Forall2_len {A B} (P : A -> B -> Prop) l m : Forall2 P l m -> length l = length m.
Proof. induction 1; cbn; congruence. Qed.

Lemma Forall2_mono_in {A B} (P Q : A -> B -> Prop) l m : (forall a b, In b m -> P a b -> Q a b) -> Forall2 P l m -> Forall2 Q l m.
Proof. intros H1 H2. induction H2; constructor; [apply H1; [left; reflexivity|assumption]|]. apply IHForall2. intros a b Hin. apply H1. right. exact Hin. Qed.
(** processing the queue *)
Lemma flush_ok g ids cids h x : NoDup ids -> NoDup cids ->
  (forall id, In id ids -> id < length (h_v h)) -> (forall id, In id cids -> id < length (h_c h)) ->
  gok g ids cids h ->
  gok (grb_flush g) (filter (fun id => negb (v_gone (nth id (h_v h) no_v))) ids)
    (filter (fun id => negb (c_gone (nth id (h_c h) no_c))) cids) (hnote h (GOptimize x)).
Proof.
  intros N Nc Rv Rc [Kc Kn Kd Rn Rd Kr Kq Ko Kk _ _].
  set (P := fun id => negb (v_gone (nth id (h_v h) no_v))). set (Pc := fun id => negb (c_gone (nth id (h_c h) no_c))).
  assert (HD : forall p id, nth_error ids p = Some id -> mem p (g_delv g) = negb (P id)).
  { intros p id E. unfold P. rewrite negb_involutive. apply Kd. exact E. }
  assert (HC : forall p id, nth_error cids p = Some id -> mem p (g_delc g) = negb (Pc id)).
  { intros p id E. unfold Pc. rewrite negb_involutive. apply Rd. exact E. }
  assert (Ec : keep (g_delv g) 0 (g_cols g) = map (col_ok h) (filter P ids)).
  { rewrite Kc. apply keep_map. exact HD. }
  assert (Er : Forall2 (row_ok ids) (keep (g_delc g) 0 (g_rows g)) (map (fun id => nth id (h_c h) no_c) (filter Pc cids))).
  { apply keep_Forall2; [exact HC|exact Kr]. }
  constructor; cbn [grb_flush g_cols g_ncols g_delv g_rows g_nrows g_delc g_qrows g_q g_con hnote h_v h_c h_q h_obj h_kv h_kc].
  - exact Ec.
  - rewrite Ec, map_length. split; [reflexivity|]. intros p id E. split; intros _; [apply nth_error_Some; congruence|].
    apply nth_error_In, filter_In in E as [E _]. auto.
  - intros p id E. apply nth_error_In, filter_In in E as [_ E]. unfold P in E. destruct (v_gone _); [discriminate|reflexivity].
  - rewrite (Forall2_len _ _ _ Er), map_length. split; [reflexivity|]. intros p id E. split; intros _; [apply nth_error_Some; congruence|].
    apply nth_error_In, filter_In in E as [E _]. auto.
  - intros p id E. apply nth_error_In, filter_In in E as [_ E]. unfold Pc in E. destruct (c_gone _); [discriminate|reflexivity].
  - apply Forall2_map_l. eapply Forall2_mono; [|exact Er]. intros r c (R1 & R2 & R3 & R4).
    split; [exact R1|]. split; [exact R2|]. cbn [gr_terms]. split; [apply renum_lt; assumption|].
    intros p id E. assert (Hin : In id (filter P ids)) by (eapply nth_error_In; exact E). apply filter_In in Hin as [Hin Hp].
    assert (Np : NoDup (filter P ids)) by (apply NoDup_filter; exact N).
    rewrite <- (pos_at _ p id Np E). rewrite (assoc_renum (g_delv g) P ids (pos ids id) id); try assumption; [|apply pos_nth; exact Hin].
    apply R4. apply pos_nth. exact Hin.
  - apply Forall2_map_l. eapply Forall2_mono; [|exact Kq]. intros r q (Q1 & Q2 & Q3). split; [|split]; cbn [gq_lin gq_quad gq_rhs].
    + rewrite Q1. apply terms1_renum; assumption.
    + rewrite Q2. apply terms2_renum; assumption.
    + exact Q3.
  - rewrite Ko. apply terms2_renum; assumption.
  - exact Kk.
  - constructor.
  - constructor.
Qed.

(** ** single calls *)
Lemma heap_nodup reps ids gone : heap_ok reps ids gone -> NoDup ids.
Proof. intros H1. apply sorted_nodup, (ho_sorted _ _ _ H1). Qed.
Lemma use_var s h id : gsim s h -> usable h id ->
  In id (gm_vars s) /\ r_index (nth id (gm_vreps s) no_rep) = pos (gm_vars s) id /\ pos (gm_vars s) id < g_ncols (gm_grb s).
Proof.
  intros Sm [U1 U2]. assert (Hin : In id (gm_vars s)). { apply (s_deadv _ _ Sm); [pose proof (s_kv _ _ Sm); lia|exact U2]. }
  split; [exact Hin|]. pose proof (pos_nth _ _ Hin) as E. split; [apply (ho_index _ _ _ (s_v _ _ Sm)); exact E|].
  apply (proj2 (k_ncols _ _ _ _ (s_g _ _ Sm)) _ _ E). exact U1.
Qed.
Lemma use_cnt s h id : gsim s h -> usable_c h id ->
  In id (gm_cnts s) /\ r_index (nth id (gm_creps s) no_rep) = pos (gm_cnts s) id /\ pos (gm_cnts s) id < g_nrows (gm_grb s).
Proof.
  intros Sm [U1 U2]. assert (Hin : In id (gm_cnts s)). { apply (s_deadc _ _ Sm); [pose proof (s_kc _ _ Sm); lia|exact U2]. }
  split; [exact Hin|]. pose proof (pos_nth _ _ Hin) as E. split; [apply (ho_index _ _ _ (s_c _ _ Sm)); exact E|].
  apply (proj2 (k_nrows _ _ _ _ (s_g _ _ Sm)) _ _ E). exact U1.
Qed.
Lemma use_vars s h vars : gsim s h -> Forall (usable h) vars ->
  Forall (fun id => In id (gm_vars s)) vars /\ ginds s vars = map (pos (gm_vars s)) vars /\ known (gm_grb s) (ginds s vars) = true /\
  Forall (fun id => id < length (h_v h)) vars.
Proof.
  intros Sm F. rewrite Forall_forall in F.
  assert (E : ginds s vars = map (pos (gm_vars s)) vars).
  { unfold ginds. apply map_ext_in. intros id Hin. apply (use_var s h id Sm (F id Hin)). }
  split; [apply Forall_forall; intros id Hin; apply (use_var s h id Sm (F id Hin))|]. split; [exact E|]. split.
  - rewrite E. unfold known. apply forallb_forall. intros i Hi. apply in_map_iff in Hi as (id & <- & Hin). apply Nat.ltb_lt. apply (use_var s h id Sm (F id Hin)).
  - apply Forall_forall. intros id Hin. destruct (F id Hin). pose proof (s_kv _ _ Sm). lia.
Qed.
Lemma mem_map_pos ids vars p id : NoDup ids -> Forall (fun v => In v ids) vars -> nth_error ids p = Some id -> mem p (map (pos ids) vars) = mem id vars.
Proof.
  intros N F E. apply eq_true_iff_eq. rewrite !mem_In, in_map_iff. rewrite Forall_forall in F. split.
  - intros (v & E1 & Hin). pose proof (pos_nth ids v (F v Hin)) as E2. rewrite E1, E in E2. inversion E2; subst. exact Hin.
  - intros Hin. exists id. split; [apply pos_at; assumption|exact Hin].
Qed.

(** addVar *)
Lemma neq_pairs n e : Forall (fun v => v < n) (a_vars e) -> Forall (fun t => fst t <> n) (pairs e).
Proof.
  intros F. apply Forall_forall. intros [v c] Hin. apply in_combine_l in Hin. rewrite Forall_forall in F. specialize (F v Hin). cbn in *. lia.
Qed.
Lemma neq_pairs2 n q : below n q -> Forall (fun t => fst (fst t) <> n /\ snd (fst t) <> n) (pairs2 q).
Proof.
  intros (_ & F & G). apply Forall_forall. intros [[a b] c] Hin. apply in_combine_l in Hin. rewrite Forall_forall in F, G.
  specialize (F a (in_combine_l _ _ _ _ Hin)). specialize (G b (in_combine_r _ _ _ _ Hin)). cbn in *. lia.
Qed.
Lemma below_S n m q : n <= m -> below n q -> below m q.
Proof. intros L (H1 & H2 & H3). split; [|split]; (eapply Forall_impl; [|eassumption]); cbn; intros; lia. Qed.
Lemma nth_snoc {A} (l : list A) a i d : i < length l -> nth i (l ++ [a]) d = nth i l d.
Proof. intros H1. apply app_nth1. exact H1. Qed.
Lemma nth_error_snoc {A} (l : list A) a p b : nth_error (l ++ [a]) p = Some b -> (p < length l /\ nth_error l p = Some b) \/ (p = length l /\ a = b).
Proof.
  intros E. destruct (Nat.lt_ge_cases p (length l)) as [Q|Q]; [left; rewrite nth_error_app1 in E by exact Q; auto|right].
  rewrite nth_error_app2 in E by exact Q. destruct (p - length l) as [|[|k]] eqn:D; try discriminate. cbn in E. split; [lia|congruence].
Qed.
Lemma mem_out i n l : Forall (fun k => k < n) l -> n <= i -> mem i l = false.
Proof.
  intros F L. destruct (mem i l) eqn:M; [|reflexivity]. apply mem_In in M. rewrite Forall_forall in F. specialize (F i M). cbn in F. lia.
Qed.
Lemma ids_range reps ids (f : list (vfact R)) : heap_ok reps ids (map v_gone f) -> forall id, In id ids -> id < length f.
Proof. intros Hv id Hin. pose proof (ho_range _ _ _ Hv) as F. rewrite Forall_forall in F. specialize (F id Hin). rewrite map_length in F. exact F. Qed.
Lemma cids_range reps ids (f : list (cfact R)) : heap_ok reps ids (map c_gone f) -> forall id, In id ids -> id < length f.
Proof. intros Hv id Hin. pose proof (ho_range _ _ _ Hv) as F. rewrite Forall_forall in F. specialize (F id Hin). rewrite map_length in F. exact F. Qed.
Lemma row_more ids id r c : ~ In id ids -> Forall (fun v => v < id) (a_vars (c_expr c)) -> row_ok ids r c -> row_ok (ids ++ [id]) r c.
Proof.
  intros Ni F (R1 & R2 & R3 & R4). split; [exact R1|]. split; [exact R2|]. split.
  - eapply Forall_impl; [|exact R3]. cbn. intros. rewrite app_length. lia.
  - intros p i E. destruct (nth_error_snoc _ _ _ _ E) as [[Q E2]|[-> <-]]; [apply R4; exact E2|].
    rewrite !assoc_sum_none; [reflexivity|apply neq_pairs; exact F|]. eapply Forall_impl; [|exact R3]. cbn. intros. lia.
Qed.
Lemma sim_add_var s h lo hi : gsim s h -> gsim (g_add_var s lo hi) (hnote h (GAddVar lo hi)).
Proof.
  intros Sm. pose proof Sm as [Hv Hc Dv Dc Lv Lc Kv Kc Bo Bq Be G]. destruct G as [G1 G2 G3 G4 G5 G6 G7 G8 G9 G10 G11].
  pose proof (ids_range _ _ _ Hv) as Rv. pose proof (cids_range _ _ _ Hc) as Rc.
  assert (Lr : length (gm_vreps s) = length (h_v h)) by (rewrite (ho_len _ _ _ Hv); apply map_length).
  assert (Nn : ~ In (length (h_v h)) (gm_vars s)) by (intros Hin; apply Rv in Hin; lia).
  constructor; cbn [hnote hist_v h_v h_c h_q h_obj h_kv h_kc h_deadv h_deadc g_add_var gm_vreps gm_vars gm_creps gm_cnts gm_grb];
    rewrite ?app_length; cbn [length]; try assumption; try lia.
  - rewrite map_app. cbn [map v_gone]. apply heap_add. exact Hv.
  - intros id Hid. rewrite in_app_iff. cbn [In]. rewrite Lr. destruct (Nat.eq_dec id (length (h_v h))) as [->|Ne].
    + split; [intros _ Hin; apply Lv in Hin; lia|auto].
    + rewrite <- (Dv id) by lia. split; [intros [Q|[Q|[]]]; [exact Q|congruence]|auto].
  - intros id Hin. apply Lv in Hin. lia.
  - eapply below_S; [|exact Bo]. lia.
  - eapply Forall_impl; [|exact Bq]. intros q Hq. eapply below_S; [|exact Hq]. lia.
  - eapply Forall_impl; [|exact Be]. intros c Hq. cbn in *. eapply Forall_impl; [|exact Hq]. cbn. intros; lia.
  - rewrite Lr. constructor; cbn [hnote hist_v h_v h_c h_q h_obj h_kv h_kc h_deadv h_deadc grb_addvar grb_with_cols g_cols g_ncols g_delv g_rows g_nrows g_delc g_qrows g_q g_con];
      try assumption.
    + rewrite G1, map_app. f_equal.
      * apply map_ext_in. intros id Hin. unfold col_ok. cbn [h_v h_obj hist_v]. rewrite nth_snoc by auto. reflexivity.
      * cbn [map]. unfold col_ok. cbn [h_v h_obj hist_v]. rewrite app_nth2, Nat.sub_diag by lia. cbn [nth v_lo v_hi]. f_equal. f_equal.
        symmetry. apply assoc_sum_none, neq_pairs. exact (proj1 Bo).
    + rewrite app_length. cbn [length]. split; [lia|]. intros p id E. destruct (nth_error_snoc _ _ _ _ E) as [[Q E2]|[-> <-]]; [apply G2; exact E2|]. lia.
    + intros p id E. destruct (nth_error_snoc _ _ _ _ E) as [[Q E2]|[-> <-]].
      * rewrite nth_snoc by (apply Rv; eapply nth_error_In; exact E2). apply G3. exact E2.
      * rewrite app_nth2, Nat.sub_diag by lia. cbn [nth v_gone]. eapply mem_out; [exact G10|lia].
    + eapply Forall2_mono_in; [|exact G6]. intros r c Hin. apply in_map_iff in Hin as (i & <- & Hin). apply row_more; [exact Nn|].
      rewrite Forall_forall in Be. apply Be. apply nth_In. auto.
    + eapply Forall2_mono_in; [|exact G7]. intros r q Hin (Q1 & Q2 & Q3). rewrite Forall_forall in Bq. specialize (Bq q Hin).
      split; [|split; [|exact Q3]]; [rewrite terms1_app; [exact Q1|apply neq_pairs; exact (proj1 Bq)]|rewrite terms2_app; [exact Q2|apply neq_pairs2; exact Bq]].
    + rewrite terms2_app; [exact G8|]. apply neq_pairs2. exact Bo.
Qed.

(** removeVars, removeCnts *)
Lemma lose_v_len vars : forall f : list (vfact R), length (fold_left lose_v vars f) = length f.
Proof. induction vars as [|a r IH]; intros f; [reflexivity|]. cbn [fold_left]. rewrite IH. apply set_nth_length. Qed.
Lemma lose_c_len vars : forall f : list (cfact R), length (fold_left lose_c vars f) = length f.
Proof. induction vars as [|a r IH]; intros f; [reflexivity|]. cbn [fold_left]. rewrite IH. apply set_nth_length. Qed.
Lemma lose_v_nth vars : forall (f : list (vfact R)) id, id < length f ->
  nth id (fold_left lose_v vars f) no_v =
  {| v_gone := v_gone (nth id f no_v) || mem id vars; v_lo := v_lo (nth id f no_v); v_hi := v_hi (nth id f no_v) |}.
Proof.
  induction vars as [|a r IH]; intros f id Hid.
  - cbn. rewrite orb_false_r. destruct (nth id f no_v); reflexivity.
  - cbn [fold_left]. rewrite IH by (unfold lose_v; rewrite set_nth_length; exact Hid). unfold lose_v. rewrite set_nth_nth. cbn [mem existsb].
    destruct (Nat.eqb_spec id a) as [->|]; cbn [andb orb].
    + rewrite (proj2 (Nat.ltb_lt a (length f))) by exact Hid. cbn [v_gone v_lo v_hi]. rewrite orb_true_l, orb_true_r. reflexivity.
    + reflexivity.
Qed.
Lemma lose_c_nth vars : forall (f : list (cfact R)) id, id < length f ->
  nth id (fold_left lose_c vars f) no_c =
  {| c_gone := c_gone (nth id f no_c) || mem id vars; c_ineq := c_ineq (nth id f no_c); c_expr := c_expr (nth id f no_c) |}.
Proof.
  induction vars as [|a r IH]; intros f id Hid.
  - cbn. rewrite orb_false_r. destruct (nth id f no_c); reflexivity.
  - cbn [fold_left]. rewrite IH by (unfold lose_c; rewrite set_nth_length; exact Hid). unfold lose_c. rewrite set_nth_nth. cbn [mem existsb].
    destruct (Nat.eqb_spec id a) as [->|]; cbn [andb orb].
    + rewrite (proj2 (Nat.ltb_lt a (length f))) by exact Hid. cbn [c_gone c_ineq c_expr]. rewrite orb_true_l, orb_true_r. reflexivity.
    + reflexivity.
Qed.
Lemma map_set_nth {A B} (g : A -> B) l i v : map g (set_nth l i v) = set_nth (map g l) i (g v).
Proof. revert i. induction l as [|a l IH]; intros [|i]; cbn; try reflexivity. rewrite IH. reflexivity. Qed.
Lemma heap_lose_v vars : forall reps ids (f : list (vfact R)), Forall (fun id => id < length f) vars -> heap_ok reps ids (map v_gone f) ->
  heap_ok (fold_left mark vars reps) ids (map v_gone (fold_left lose_v vars f)).
Proof.
  induction vars as [|a r IH]; intros reps ids f F H1; [exact H1|]. inversion F as [|? ? F1 F2]; subst. cbn [fold_left]. apply IH.
  - eapply Forall_impl; [|exact F2]. intros b Hb. unfold lose_v. rewrite set_nth_length. exact Hb.
  - unfold lose_v. rewrite map_set_nth. cbn [v_gone]. apply heap_remove; [exact H1|rewrite map_length; exact F1].
Qed.
Lemma heap_lose_c vars : forall reps ids (f : list (cfact R)), Forall (fun id => id < length f) vars -> heap_ok reps ids (map c_gone f) ->
  heap_ok (fold_left mark vars reps) ids (map c_gone (fold_left lose_c vars f)).
Proof.
  induction vars as [|a r IH]; intros reps ids f F H1; [exact H1|]. inversion F as [|? ? F1 F2]; subst. cbn [fold_left]. apply IH.
  - eapply Forall_impl; [|exact F2]. intros b Hb. unfold lose_c. rewrite set_nth_length. exact Hb.
  - unfold lose_c. rewrite map_set_nth. cbn [c_gone]. apply heap_remove; [exact H1|rewrite map_length; exact F1].
Qed.
Lemma sim_remove_vars s h vars : gsim s h -> Forall (usable h) vars ->
  exists s', g_remove_vars s vars = GOk s' /\ gsim s' (hnote h (GRemoveVars vars)).
Proof.
  intros Sm U. destruct (use_vars s h vars Sm U) as (U1 & U2 & U3 & U4).
  pose proof Sm as [Hv Hc Dv Dc Lv Lc Kv Kc Bo Bq Be G]. destruct G as [G1 G2 G3 G4 G5 G6 G7 G8 G9 G10 G11].
  pose proof (ids_range _ _ _ Hv) as Rv.
  unfold g_remove_vars, grb_delvars. rewrite U3. cbn [ensure gbind]. eexists. split; [reflexivity|].
  constructor; cbn [hnote hist_v h_v h_c h_q h_obj h_kv h_kc h_deadv h_deadc with_vreps with_grb gm_vreps gm_vars gm_creps gm_cnts gm_grb];
    rewrite ?lose_v_len; try assumption.
  - apply heap_lose_v; assumption.
  - constructor; cbn [hnote hist_v h_v h_c h_q h_obj h_kv h_kc h_deadv h_deadc g_cols g_ncols g_delv g_rows g_nrows g_delc g_qrows g_q g_con]; try assumption.
    + rewrite G1. apply map_ext_in. intros id Hin. unfold col_ok. cbn [h_v h_obj hist_v]. rewrite lose_v_nth by auto. reflexivity.
    + intros p id E. rewrite lose_v_nth by (apply Rv; eapply nth_error_In; exact E). cbn [v_gone]. rewrite mem_app, (G3 p id E), U2.
      rewrite (mem_map_pos _ vars p id (heap_nodup _ _ _ Hv) U1 E). reflexivity.
    + apply Forall_app. split; [exact G10|]. unfold known in U3. rewrite forallb_forall in U3. apply Forall_forall. intros i Hi. apply Nat.ltb_lt. auto.
Qed.
Lemma deref_some l : deref (map Some l) = Some l.
Proof. induction l as [|a l IH]; [reflexivity|]. cbn [map deref]. rewrite IH. reflexivity. Qed.
Lemma sim_remove_cnts s h cnts : gsim s h -> Forall (usable_c h) cnts ->
  exists s', g_remove_cnts s (map Some cnts) = GOk s' /\ gsim s' (hnote h (GRemoveCnts cnts)).
Proof.
  intros Sm U. rewrite Forall_forall in U.
  assert (U1 : Forall (fun id => In id (gm_cnts s)) cnts) by (apply Forall_forall; intros id Hin; apply (use_cnt s h id Sm (U id Hin))).
  assert (U2 : gcinds s cnts = map (pos (gm_cnts s)) cnts).
  { unfold gcinds. apply map_ext_in. intros id Hin. apply (use_cnt s h id Sm (U id Hin)). }
  assert (U3 : forallb (fun i => i <? g_nrows (gm_grb s)) (gcinds s cnts) = true).
  { rewrite U2. apply forallb_forall. intros i Hi. apply in_map_iff in Hi as (id & <- & Hin). apply Nat.ltb_lt. apply (use_cnt s h id Sm (U id Hin)). }
  assert (U4 : Forall (fun id => id < length (h_c h)) cnts).
  { apply Forall_forall. intros id Hin. destruct (U id Hin). pose proof (s_kc _ _ Sm). lia. }
  pose proof Sm as [Hv Hc Dv Dc Lv Lc Kv Kc Bo Bq Be G]. destruct G as [G1 G2 G3 G4 G5 G6 G7 G8 G9 G10 G11].
  pose proof (cids_range _ _ _ Hc) as Rc.
  unfold g_remove_cnts, grb_delconstrs. rewrite deref_some, U3. cbn [ensure gbind]. eexists. split; [reflexivity|].
  constructor; cbn [hnote hist_c h_v h_c h_q h_obj h_kv h_kc h_deadv h_deadc with_creps with_grb gm_vreps gm_vars gm_creps gm_cnts gm_grb];
    rewrite ?lose_c_len; try assumption.
  - apply heap_lose_c; assumption.
  - apply Forall_forall. intros c Hin. apply (In_nth _ _ no_c) in Hin as (i & Hi & <-). rewrite lose_c_len in Hi. rewrite lose_c_nth by exact Hi. cbn [c_expr].
    rewrite Forall_forall in Be. apply Be, nth_In, Hi.
  - constructor; cbn [hnote hist_c h_v h_c h_q h_obj h_kv h_kc h_deadv h_deadc g_cols g_ncols g_delv g_rows g_nrows g_delc g_qrows g_q g_con]; try assumption.
    + intros p id E. rewrite lose_c_nth by (apply Rc; eapply nth_error_In; exact E). cbn [c_gone]. rewrite mem_app, (G5 p id E), U2.
      rewrite (mem_map_pos _ cnts p id (heap_nodup _ _ _ Hc) U1 E). reflexivity.
    + assert (K : forall rows ids, (forall id, In id ids -> id < length (h_c h)) -> Forall2 (row_ok (gm_vars s)) rows (map (fun id => nth id (h_c h) no_c) ids) ->
        Forall2 (row_ok (gm_vars s)) rows (map (fun id => nth id (fold_left lose_c cnts (h_c h)) no_c) ids)).
      { intros rows ids. revert rows. induction ids as [|i r IH]; intros rows Rg F; inversion F as [|x y l l' Q1 Q2]; subst; [constructor|]. cbn [map].
        constructor; [|apply IH; [intros; apply Rg; right; assumption|exact Q2]]. rewrite lose_c_nth by (apply Rg; left; reflexivity).
        destruct Q1 as (A1 & A2 & A3 & A4). split; [exact A1|]. split; [exact A2|]. split; [exact A3|exact A4]. }
      apply K; assumption.
    + apply Forall_app. split; [exact G11|]. rewrite forallb_forall in U3. apply Forall_forall. intros i Hi. apply Nat.ltb_lt. auto.
Qed.

(** setVarBounds *)
Definition last_of (vars : list nat) (vals : list R) (id : nat) (d : R) : R :=
  fold_left (fun d p => if fst p =? id then snd p else d) (combine vars vals) d.
Lemma set_nth_pos {A} (f : nat -> A) ids v x : NoDup ids -> In v ids ->
  set_nth (map f ids) (pos ids v) x = map (fun id => if v =? id then x else f id) ids.
Proof.
  induction ids as [|a r IH]; intros N Hin; [destruct Hin|]. inversion N as [|? ? N1 N2]; subst. cbn [map pos]. rewrite (Nat.eqb_sym v a).
  destruct (Nat.eqb_spec a v) as [->|Ne]; cbn [set_nth].
  - f_equal. apply map_ext_in. intros b Hb. destruct (Nat.eqb_spec v b); [subst; contradiction|reflexivity].
  - f_equal. destruct Hin as [Hin|Hin]; [congruence|]. apply IH; assumption.
Qed.
Lemma nth_map_pos {A} (f : nat -> A) ids v d : In v ids -> nth (pos ids v) (map f ids) d = f v.
Proof.
  intros Hin. apply nth_error_nth. apply map_nth_error, pos_nth. exact Hin.
Qed.
Lemma at_lo ids vars : forall vals (f : nat -> gcol R), NoDup ids -> Forall (fun v => In v ids) vars ->
  at_inds set_lo (map (pos ids) vars) vals (map f ids) =
  map (fun id => {| gc_lo := last_of vars vals id (gc_lo (f id)); gc_hi := gc_hi (f id); gc_obj := gc_obj (f id) |}) ids.
Proof.
  induction vars as [|v r IH]; intros [|x vals] f N F.
  1,2,3: cbn; apply map_ext; intros id; destruct (f id); reflexivity.
  inversion F as [|? ? F1 F2]; subst. cbn [map at_inds]. rewrite nth_map_pos by exact F1. rewrite set_nth_pos by assumption. rewrite IH by assumption.
  apply map_ext. intros id. unfold last_of. cbn [combine fold_left fst snd]. destruct (Nat.eqb_spec v id) as [->|]; reflexivity.
Qed.
Lemma at_hi ids vars : forall vals (f : nat -> gcol R), NoDup ids -> Forall (fun v => In v ids) vars ->
  at_inds set_hi (map (pos ids) vars) vals (map f ids) =
  map (fun id => {| gc_lo := gc_lo (f id); gc_hi := last_of vars vals id (gc_hi (f id)); gc_obj := gc_obj (f id) |}) ids.
Proof.
  induction vars as [|v r IH]; intros [|x vals] f N F.
  1,2,3: cbn; apply map_ext; intros id; destruct (f id); reflexivity.
  inversion F as [|? ? F1 F2]; subst. cbn [map at_inds]. rewrite nth_map_pos by exact F1. rewrite set_nth_pos by assumption. rewrite IH by assumption.
  apply map_ext. intros id. unfold last_of. cbn [combine fold_left fst snd]. destruct (Nat.eqb_spec v id) as [->|]; reflexivity.
Qed.
Lemma bound_len l : forall f : list (vfact R), length (fold_left bound_v l f) = length f.
Proof. induction l as [|a r IH]; intros f; [reflexivity|]. cbn [fold_left]. rewrite IH. apply set_nth_length. Qed.
Lemma bound_nth vars : forall lo hi (f : list (vfact R)) id, length vars = length lo -> length vars = length hi -> id < length f ->
  nth id (fold_left bound_v (combine vars (combine lo hi)) f) no_v =
  {| v_gone := v_gone (nth id f no_v); v_lo := last_of vars lo id (v_lo (nth id f no_v)); v_hi := last_of vars hi id (v_hi (nth id f no_v)) |}.
Proof.
  induction vars as [|v r IH]; intros [|l lo] [|u hi] f id L1 L2 Hid; try discriminate.
  - cbn. destruct (nth id f no_v); reflexivity.
  - cbn [length] in *. cbn [combine fold_left]. rewrite IH; [|lia|lia|unfold bound_v; rewrite set_nth_length; exact Hid].
    unfold bound_v, last_of. cbn [fst snd combine fold_left]. rewrite set_nth_nth. rewrite (Nat.eqb_sym v id).
    destruct (Nat.eqb_spec id v) as [->|]; cbn [andb]; [|reflexivity]. rewrite (proj2 (Nat.ltb_lt v (length f))) by exact Hid. reflexivity.
Qed.
Lemma bound_gone l : forall f : list (vfact R), map v_gone (fold_left bound_v l f) = map v_gone f.
Proof.
  induction l as [|[v b] r IH]; intros f; [reflexivity|]. cbn [fold_left]. rewrite IH. unfold bound_v. rewrite map_set_nth. cbn [v_gone fst snd].
  clear. revert v. induction f as [|a f IH]; intros [|v]; cbn [map set_nth nth]; try reflexivity. rewrite IH. reflexivity.
Qed.
Lemma sim_set_bounds s h vars lo hi : gsim s h -> length vars = length lo -> length vars = length hi -> Forall (usable h) vars ->
  exists s', g_set_bounds s vars lo hi = GOk s' /\ gsim s' (hnote h (GSetBounds vars lo hi)).
Proof.
  intros Sm L1 L2 U. destruct (use_vars s h vars Sm U) as (U1 & U2 & U3 & U4).
  pose proof Sm as [Hv Hc Dv Dc Lv Lc Kv Kc Bo Bq Be G]. destruct G as [G1 G2 G3 G4 G5 G6 G7 G8 G9 G10 G11].
  pose proof (ids_range _ _ _ Hv) as Rv. pose proof (heap_nodup _ _ _ Hv) as N.
  unfold g_set_bounds, grb_setlist. rewrite <- L1, <- L2, Nat.eqb_refl. cbn [andb negb]. rewrite U3. cbn [ensure gbind].
  assert (K2 : known (grb_with_cols (gm_grb s) (at_inds set_lo (ginds s vars) lo (g_cols (gm_grb s)))) (ginds s vars) = true) by exact U3.
  rewrite K2. cbn [ensure gbind]. eexists. split; [reflexivity|].
  constructor; cbn [hnote hist_v h_v h_c h_q h_obj h_kv h_kc h_deadv h_deadc with_grb gm_vreps gm_vars gm_creps gm_cnts gm_grb];
    rewrite ?bound_len, ?bound_gone; try assumption.
  constructor; cbn [hnote hist_v h_v h_c h_q h_obj h_kv h_kc h_deadv h_deadc grb_with_cols g_cols g_ncols g_delv g_rows g_nrows g_delc g_qrows g_q g_con]; try assumption.
  - rewrite U2, G1, at_lo, at_hi by assumption. apply map_ext_in. intros id Hin. unfold col_ok. cbn [h_v h_obj hist_v gc_lo gc_hi gc_obj].
    rewrite bound_nth by auto. reflexivity.
  - intros p id E. rewrite bound_nth by (auto; apply Rv; eapply nth_error_In; exact E). cbn [v_gone]. apply G3. exact E.
Qed.

(** addEqCnt, addIneqCnt *)
Lemma simplify2_range (P : nat -> Prop) (inds : list nat) (vals : list R) : Forall P inds -> Forall P (fst (simplify2 inds vals)).
Proof.
  intros F. unfold simplify2. cbn [fst]. apply Forall_map.
  assert (K : forall (l acc : list (nat * R)), Forall (fun p => P (fst p)) l -> Forall (fun p => P (fst p)) acc ->
    Forall (fun p => P (fst p)) (fold_left (fun acc iv => if negb (snd iv =? nzero)%num then (if existsb (fun p => fst p =? fst iv)%nat acc then col_add (fst iv) (snd iv) acc else col_add (fst iv) (nzero + snd iv)%num acc) else acc) l acc)).
  { clear. induction l as [|p l IH]; intros acc F1 F2; [exact F2|]. cbn [fold_left]. inversion F1; subst. apply IH; [assumption|].
    destruct (negb _); [|assumption]. destruct (existsb _ _); apply (col_add_bound P); assumption. }
  apply K; [|constructor]. apply Forall_forall. intros [i c] Hin. apply in_combine_l in Hin. rewrite Forall_forall in F. cbn. auto.
Qed.
Lemma sim_add_cnt s h ineq e : gsim s h -> wf_aff e -> Forall (usable h) (a_vars e) ->
  exists s', g_add_cnt s ineq e = GOk s' /\ gsim s' (hnote h (GAddCnt ineq e)).
Proof.
  intros Sm W U. destruct (use_vars s h _ Sm U) as (U1 & U2 & U3 & U4).
  pose proof Sm as [Hv Hc Dv Dc Lv Lc Kv Kc Bo Bq Be G]. destruct G as [G1 G2 G3 G4 G5 G6 G7 G8 G9 G10 G11].
  pose proof (heap_nodup _ _ _ Hv) as N. pose proof (cids_range _ _ _ Hc) as Rc.
  assert (Lr : length (gm_creps s) = length (h_c h)) by (rewrite (ho_len _ _ _ Hc); apply map_length).
  unfold g_add_cnt.
  pose proof (simplify2_spec (ginds s (a_vars e)) (a_coeffs e) ltac:(unfold ginds; rewrite map_length; symmetry; exact W)) as S2.
  assert (F : Forall (fun i => i < g_ncols (gm_grb s)) (ginds s (a_vars e))).
  { apply Forall_forall. unfold known in U3. rewrite forallb_forall in U3. intros i Hi. apply Nat.ltb_lt. auto. }
  pose proof (simplify2_range (fun i => i < g_ncols (gm_grb s)) (ginds s (a_vars e)) (a_coeffs e) F) as Sr.
  destruct (simplify2 _ _) as [i v]. cbn [fst] in Sr. destruct S2 as (S1 & _ & _ & S4).
  unfold grb_addconstr. replace (known (gm_grb s) i) with true.
  2: { symmetry. unfold known. apply forallb_forall. intros j Hj. apply Nat.ltb_lt. rewrite Forall_forall in Sr. auto. }
  cbn [ensure gbind]. eexists. split; [reflexivity|].
  constructor; cbn [hnote hist_c h_v h_c h_q h_obj h_kv h_kc h_deadv h_deadc gm_vreps gm_vars gm_creps gm_cnts gm_grb];
    rewrite ?app_length; cbn [length]; try assumption; try lia.
  - rewrite map_app. cbn [map c_gone]. apply heap_add. exact Hc.
  - intros id Hid. rewrite in_app_iff. cbn [In]. rewrite Lr. destruct (Nat.eq_dec id (length (h_c h))) as [->|Ne].
    + split; [intros _ Hin; apply Lc in Hin; lia|auto].
    + rewrite <- (Dc id) by lia. split; [intros [Q|[Q|[]]]; [exact Q|congruence]|auto].
  - intros id Hin. apply Lc in Hin. lia.
  - apply Forall_app. split; [exact Be|]. constructor; [exact U4|constructor].
  - rewrite Lr. constructor; cbn [hnote hist_c h_v h_c h_q h_obj h_kv h_kc h_deadv h_deadc g_cols g_ncols g_delv g_rows g_nrows g_delc g_qrows g_q g_con];
      try assumption.
    + rewrite app_length. cbn [length]. split; [lia|]. intros p id E. destruct (nth_error_snoc _ _ _ _ E) as [[Q E2]|[-> <-]]; [apply G4; exact E2|]. lia.
    + intros p id E. destruct (nth_error_snoc _ _ _ _ E) as [[Q E2]|[-> <-]].
      * rewrite nth_snoc by (apply Rc; eapply nth_error_In; exact E2). apply G5. exact E2.
      * rewrite app_nth2, Nat.sub_diag by lia. cbn [nth c_gone]. eapply mem_out; [exact G11|lia].
    + rewrite map_app. apply Forall2_app.
      * replace (map (fun id => nth id (h_c h ++ [_]) no_c) (gm_cnts s)) with (map (fun id => nth id (h_c h) no_c) (gm_cnts s)); [exact G6|].
        apply map_ext_in. intros id Hin. symmetry. apply nth_snoc. auto.
      * cbn [map]. constructor; [|constructor]. rewrite app_nth2, Nat.sub_diag by lia. cbn [nth]. split; [reflexivity|]. split; [reflexivity|].
        cbn [gr_terms c_expr]. split.
        -- apply Forall_forall. intros [j c] Hin. apply in_combine_l in Hin. rewrite Forall_forall in Sr. specialize (Sr j Hin). cbn in *. lia.
        -- intros p id E. rewrite S4, U2, terms1_all by exact U1. unfold pairs. apply assoc_sum_terms; assumption.
Qed.

Lemma sim_add_quad_cnt s h q : gsim s h -> usable_q h q ->
  exists s', gbind (g_add_quad_cnt s q) (fun r => GOk (fst r)) = GOk s' /\ gsim s' (hnote h (GAddQuadCnt q)).
Proof.
  intros Sm (W & V1 & V2 & V3). destruct (use_vars s h _ Sm V1) as (A1 & A2 & A3 & A4). destruct (use_vars s h _ Sm V2) as (B1 & B2 & B3 & B4).
  destruct (use_vars s h _ Sm V3) as (C1 & C2 & C3 & C4).
  pose proof Sm as [Hv Hc Dv Dc Lv Lc Kv Kc Bo Bq Be G]. destruct G as [G1 G2 G3 G4 G5 G6 G7 G8 G9 G10 G11].
  unfold g_add_quad_cnt, grb_addqconstr. rewrite A3, B3, C3. cbn [andb ensure gbind fst]. eexists. split; [reflexivity|].
  constructor; cbn [hnote h_v h_c h_q h_obj h_kv h_kc h_deadv h_deadc with_grb gm_vreps gm_vars gm_creps gm_cnts gm_grb]; try assumption.
  - apply Forall_app. split; [exact Bq|]. constructor; [|constructor]. split; [exact A4|]. split; [exact B4|exact C4].
  - constructor; cbn [hnote h_v h_c h_q h_obj h_kv h_kc h_deadv h_deadc g_cols g_ncols g_delv g_rows g_nrows g_delc g_qrows g_q g_con]; try assumption.
    apply Forall2_app; [exact G7|]. constructor; [|constructor]. split; [|split]; cbn [gq_lin gq_quad gq_rhs]; [| |reflexivity].
    + rewrite A2. apply terms1_all. exact A1.
    + rewrite B2, C2. apply terms2_all; assumption.
Qed.

(** setObjective *)
Lemma g_obj_spec inds : forall coeffs (obj : list R), Forall (fun i => i < length obj) inds ->
  exists obj', g_obj inds coeffs obj = Some obj' /\ length obj' = length obj /\
    forall p, nth p obj' 0%R = (nth p obj 0 + assoc_sum p (combine inds coeffs))%R.
Proof.
  induction inds as [|i inds IH]; intros coeffs obj F.
  - exists obj. split; [destruct coeffs; reflexivity|]. split; [reflexivity|]. intros p. cbn [combine]. rewrite assoc_sum_nil. ring.
  - destruct coeffs as [|c coeffs]; [exists obj; split; [reflexivity|]; split; [reflexivity|]; intros p; cbn [combine]; rewrite assoc_sum_nil; ring|].
    inversion F as [|? ? F1 F2]; subst. cbn [g_obj]. rewrite (proj2 (Nat.ltb_lt _ _) F1).
    destruct (IH coeffs (set_nth obj i (nadd (nth i obj nzero) c))) as (obj' & E & L & V).
    { rewrite set_nth_length. exact F2. }
    rewrite set_nth_length in L. exists obj'. split; [exact E|]. split; [exact L|]. intros p. rewrite V. cbn [combine]. rewrite assoc_sum_cons. cbn [fst snd].
    rewrite set_nth_nth. rewrite (Nat.eqb_sym i p). destruct (Nat.eqb_spec p i) as [->|]; cbn [andb].
    + rewrite (proj2 (Nat.ltb_lt _ _) F1). rnum. ring.
    + ring.
Qed.
Lemma at_seq (f : R -> gcol R -> gcol R) : forall cols pre vals, length cols = length vals ->
  at_inds f (seq (length pre) (length vals)) vals (pre ++ cols) = pre ++ map (fun p => f (fst p) (snd p)) (combine vals cols).
Proof.
  induction cols as [|c cols IH]; intros pre [|v vals] L; try discriminate; [reflexivity|]. cbn [length seq at_inds combine map fst snd].
  assert (E1 : nth (length pre) (pre ++ c :: cols) no_col = c) by (rewrite app_nth2, Nat.sub_diag by lia; reflexivity).
  assert (E2 : set_nth (pre ++ c :: cols) (length pre) (f v c) = (pre ++ [f v c]) ++ cols).
  { clear. induction pre as [|a pre IH]; [reflexivity|]. cbn. rewrite IH. reflexivity. }
  rewrite E1, E2. specialize (IH (pre ++ [f v c]) vals). rewrite app_length in IH. cbn [length] in IH. rewrite Nat.add_1_r in IH. rewrite IH by (cbn in L; lia).
  rewrite <- app_assoc. reflexivity.
Qed.
Lemma sim_set_aff s h e : gsim s h -> wf_aff e -> Forall (usable h) (a_vars e) -> h_kv h = length (h_v h) ->
  exists s', g_set_aff s e = GOk s' /\ gsim s' (hnote h (GSetAff e)) /\ g_q (gm_grb s') = [] /\
    gm_vreps s' = gm_vreps s /\ gm_vars s' = gm_vars s /\ g_ncols (gm_grb s') = g_ncols (gm_grb s).
Proof.
  intros Sm W U Hk. destruct (use_vars s h _ Sm U) as (U1 & U2 & U3 & U4).
  pose proof Sm as [Hv Hc Dv Dc Lv Lc Kv Kc Bo Bq Be G]. destruct G as [G1 G2 G3 G4 G5 G6 G7 G8 G9 G10 G11].
  pose proof (heap_nodup _ _ _ Hv) as N. pose proof (ids_range _ _ _ Hv) as Rv.
  assert (En : g_ncols (gm_grb s) = length (gm_vars s)).
  { destruct G2 as [L2 Q]. destruct (Nat.lt_ge_cases (g_ncols (gm_grb s)) (length (gm_vars s))) as [C|C]; [|lia]. exfalso.
    destruct (nth_error (gm_vars s) (g_ncols (gm_grb s))) as [id|] eqn:E; [|apply nth_error_None in E; lia].
    pose proof (proj1 (Q _ _ E)) as Q2. rewrite Hk in Q2. specialize (Q2 (Rv id (nth_error_In _ _ E))). lia. }
  unfold g_set_aff. cbn [grb_with_obj g_ncols]. rewrite En, Nat.eqb_refl. cbn [negb].
  destruct (g_obj_spec (ginds s (a_vars e)) (a_coeffs e) (repeat nzero (length (gm_vars s)))) as (obj & Eo & Lo & Vo).
  { rewrite repeat_length. unfold known in U3. rewrite forallb_forall in U3. apply Forall_forall. intros i Hi. rewrite <- En. apply Nat.ltb_lt. auto. }
  rewrite Eo. rewrite repeat_length in Lo.
  unfold grb_setlist. replace (known _ (seq 0 (length (gm_vars s)))) with true.
  2: { symmetry. unfold known. apply forallb_forall. intros j Hj. apply in_seq in Hj. apply Nat.ltb_lt. cbn [g_ncols grb_with_obj]. lia. }
  cbn [ensure gbind]. eexists. split; [reflexivity|]. split; [|cbn; auto].
  constructor; cbn [hnote hist_obj h_v h_c h_q h_obj h_kv h_kc h_deadv h_deadc with_grb gm_vreps gm_vars gm_creps gm_cnts gm_grb]; try assumption.
  - split; [exact U4|]. split; constructor.
  - constructor; cbn [hnote hist_obj h_v h_c h_q h_obj h_kv h_kc h_deadv h_deadc grb_with_cols grb_with_obj g_cols g_ncols g_delv g_rows g_nrows g_delc g_qrows g_q g_con]; try assumption; try reflexivity.
    rewrite G1. pose proof (at_seq set_obj (map (col_ok h) (gm_vars s)) [] obj) as A. cbn [length app] in A. rewrite map_length, Lo in A. rewrite A by reflexivity.
    apply (nth_ext _ _ (set_obj 0%R (col_ok h 0)) (col_ok (hist_obj h (quad_of_aff e)) 0)).
    { rewrite !map_length, combine_length, map_length, Lo. apply Nat.min_id. }
    intros p Hp. rewrite map_length, combine_length, map_length, Lo, Nat.min_id in Hp.
    change (set_obj 0%R (col_ok h 0)) with ((fun p : R * gcol R => set_obj (fst p) (snd p)) (0%R, col_ok h 0)). rewrite map_nth.
    rewrite combine_nth by (rewrite map_length; exact Lo). cbn [fst snd]. rewrite (map_nth (col_ok h)), (map_nth (col_ok (hist_obj h (quad_of_aff e)))).
    unfold set_obj, col_ok. cbn [h_v h_obj hist_obj gc_lo gc_hi quad_of_aff q_aff]. f_equal. rewrite Vo.
    replace (nth p (repeat nzero (length (gm_vars s))) 0%R) with 0%R by (symmetry; apply nth_repeat). rewrite U2, terms1_all by exact U1.
    rewrite (assoc_sum_terms (gm_vars s) p (nth p (gm_vars s) 0)); [unfold pairs; ring|exact N|]. apply nth_error_nth'. exact Hp.
Qed.
Lemma sim_set_quad s h q : gsim s h -> usable_q h q -> h_kv h = length (h_v h) ->
  exists s', g_set_quad s q = GOk s' /\ gsim s' (hnote h (GSetQuad q)).
Proof.
  intros Sm (W & V1 & V2 & V3) Hk. destruct (use_vars s h _ Sm V2) as (B1 & B2 & B3 & B4). destruct (use_vars s h _ Sm V3) as (C1 & C2 & C3 & C4).
  destruct (sim_set_aff s h (q_aff q) Sm (proj1 W) V1 Hk) as (s1 & E1 & Sm1 & Q1 & R1 & R2 & R3).
  unfold g_set_quad. rewrite E1. cbn [gbind].
  assert (I : forall vars, ginds s1 vars = ginds s vars) by (intros; unfold ginds; rewrite R1; reflexivity).
  assert (Kn : forall l, known (gm_grb s1) l = known (gm_grb s) l) by (intros; unfold known; rewrite R3; reflexivity).
  unfold grb_addqpterms. rewrite !I, !Kn, B3, C3. cbn [andb]. eexists. split; [reflexivity|].
  destruct Sm1 as [Hv Hc Dv Dc Lv Lc Kv Kc Bo Bq Be G]. destruct G as [G1 G2 G3 G4 G5 G6 G7 G8 G9 G10 G11].
  cbn [hnote hist_obj h_v h_c h_q h_obj h_kv h_kc h_deadv h_deadc] in *.
  constructor; cbn [hnote hist_obj h_v h_c h_q h_obj h_kv h_kc h_deadv h_deadc with_grb gm_vreps gm_vars gm_creps gm_cnts gm_grb]; try assumption.
  - split; [exact (proj1 Bo)|]. split; [exact B4|exact C4].
  - constructor; cbn [hnote hist_obj h_v h_c h_q h_obj h_kv h_kc h_deadv h_deadc grb_with_obj g_cols g_ncols g_delv g_rows g_nrows g_delc g_qrows g_q g_con]; try assumption.
    rewrite Q1, B2, C2. cbn [app]. rewrite R2. apply terms2_all; assumption.
Qed.

(** update, optimize *)
Lemma gone_in (f : list (vfact R)) id : id < length f -> (In id (gone_v f) <-> v_gone (nth id f no_v) = true).
Proof. intros L. unfold gone_v. rewrite filter_In, in_seq. intuition lia. Qed.
Lemma gone_c_in (f : list (cfact R)) id : id < length f -> (In id (gone_c f) <-> c_gone (nth id f no_c) = true).
Proof. intros L. unfold gone_c. rewrite filter_In, in_seq. intuition lia. Qed.
Lemma gone_range (f : list (vfact R)) id : In id (gone_v f) -> id < length f.
Proof. unfold gone_v. rewrite filter_In, in_seq. intuition lia. Qed.
Lemma gone_c_range (f : list (cfact R)) id : In id (gone_c f) -> id < length f.
Proof. unfold gone_c. rewrite filter_In, in_seq. intuition lia. Qed.
Lemma live_in (f : list (vfact R)) id : id < length f -> (In id (live_v f) <-> ~ In id (gone_v f)).
Proof. intros L. rewrite gone_in by exact L. unfold live_v. rewrite filter_In, in_seq. destruct (v_gone _); cbn; intuition (try discriminate; try lia). Qed.
Lemma live_c_in (f : list (cfact R)) id : id < length f -> (In id (live_c f) <-> ~ In id (gone_c f)).
Proof. intros L. rewrite gone_c_in by exact L. unfold live_c. rewrite filter_In, in_seq. destruct (c_gone _); cbn; intuition (try discriminate; try lia). Qed.
Lemma compact_ids reps ids : compact reps ids ids ids 0 0 =
  (number reps 0 (filter (kept reps) ids), filter (kept reps) ids, filter (kept reps) ids, filter (kept reps) ids).
Proof. pose proof (compact_spec (fun i : nat => i) (fun i : nat => i) 0 0 reps ids) as C. rewrite !map_id in C. exact C. Qed.
Lemma sim_update_g s h : gsim s h ->
  gsim (g_update s) (hnote h GUpdate) /\ gm_vars (g_update s) = live_v (h_v h) /\ gm_cnts (g_update s) = live_c (h_c h).
Proof.
  intros Sm. pose proof Sm as [Hv Hc Dv Dc Lv Lc Kv Kc Bo Bq Be G].
  destruct (heap_update _ _ _ Hv) as [Ev Hv']. destruct (heap_update _ _ _ Hc) as [Ec Hc'].
  assert (Lve : live_v (h_v h) = filter (kept (gm_vreps s)) (gm_vars s)). { rewrite Ev. apply (live_v_eq (h_v h)). }
  assert (Lce : live_c (h_c h) = filter (kept (gm_creps s)) (gm_cnts s)). { rewrite Ec. apply (live_c_eq (h_c h)). }
  assert (Fv : filter (fun id => negb (v_gone (nth id (h_v h) no_v))) (gm_vars s) = live_v (h_v h)).
  { rewrite Lve. apply filter_ext. intros id. rewrite (ho_flag _ _ _ Hv), nth_gone. reflexivity. }
  assert (Fc : filter (fun id => negb (c_gone (nth id (h_c h) no_c))) (gm_cnts s) = live_c (h_c h)).
  { rewrite Lce. apply filter_ext. intros id. rewrite (ho_flag _ _ _ Hc), nth_cgone. reflexivity. }
  pose proof (flush_ok (gm_grb s) (gm_vars s) (gm_cnts s) h [] (heap_nodup _ _ _ Hv) (heap_nodup _ _ _ Hc) (ids_range _ _ _ Hv) (cids_range _ _ _ Hc) G) as G'.
  rewrite Fv, Fc in G'. rewrite <- Ev, <- Lve in Hv'. rewrite <- Ec, <- Lce in Hc'.
  unfold g_update. rewrite !compact_ids, <- Lve, <- Lce. split; [|split; reflexivity].
  constructor; cbn [hnote h_v h_c h_q h_obj h_kv h_kc h_deadv h_deadc gm_vreps gm_vars gm_creps gm_cnts gm_grb]; try assumption; try lia.
  - apply live_in.
  - apply live_c_in.
  - apply gone_range.
  - apply gone_c_range.
Qed.
Lemma filter_all {A} (P : A -> bool) l : (forall a, In a l -> P a = true) -> filter P l = l.
Proof. induction l as [|a l IH]; intros F; [reflexivity|]. cbn [filter]. rewrite (F a) by (left; reflexivity). f_equal. apply IH. intros. apply F. right. assumption. Qed.
Lemma sim_optimize s h x : gsim s h -> gone_v (h_v h) = h_deadv h -> gone_c (h_c h) = h_deadc h -> gsim (g_optimize s x) (hnote h (GOptimize x)).
Proof.
  intros Sm E1 E2. pose proof Sm as [Hv Hc Dv Dc Lv Lc Kv Kc Bo Bq Be G].
  pose proof (ids_range _ _ _ Hv) as Rv. pose proof (cids_range _ _ _ Hc) as Rc.
  assert (Fv : filter (fun id => negb (v_gone (nth id (h_v h) no_v))) (gm_vars s) = gm_vars s).
  { apply filter_all. intros id Hin. pose proof (proj1 (Dv id (Rv id Hin)) Hin) as Q. rewrite <- E1, gone_in in Q by auto. destruct (v_gone _); [congruence|reflexivity]. }
  assert (Fc : filter (fun id => negb (c_gone (nth id (h_c h) no_c))) (gm_cnts s) = gm_cnts s).
  { apply filter_all. intros id Hin. pose proof (proj1 (Dc id (Rc id Hin)) Hin) as Q. rewrite <- E2, gone_c_in in Q by auto. destruct (c_gone _); [congruence|reflexivity]. }
  pose proof (flush_ok (gm_grb s) (gm_vars s) (gm_cnts s) h x (heap_nodup _ _ _ Hv) (heap_nodup _ _ _ Hc) Rv Rc G) as G'.
  rewrite Fv, Fc in G'. destruct G' as [G1 G2 G3 G4 G5 G6 G7 G8 G9 G10 G11].
  constructor; cbn [hnote h_v h_c h_q h_obj h_kv h_kc h_deadv h_deadc g_optimize with_grb gm_vreps gm_vars gm_creps gm_cnts gm_grb]; try assumption; try lia.
  - rewrite E1. exact Dv.
  - rewrite E2. exact Dc.
  - apply gone_range.
  - apply gone_c_range.
  - constructor; cbn [grb_with_x g_cols g_ncols g_delv g_rows g_nrows g_delc g_qrows g_q g_con]; assumption.
Qed.

Lemma sim_step s h c : gsim s h -> may h c -> exists s', grun1 s c = GOk s' /\ gsim s' (hnote h c).
Proof.
  intros Sm M. destruct c; cbn [may grun1] in *.
  - eexists. split; [reflexivity|apply sim_add_var; exact Sm].
  - apply sim_remove_vars; assumption.
  - destruct M as (M1 & M2 & M3). apply sim_set_bounds; assumption.
  - destruct M. apply sim_add_cnt; assumption.
  - apply sim_add_quad_cnt; assumption.
  - apply sim_remove_cnts; assumption.
  - destruct M as (M1 & M2 & M3). destruct (sim_set_aff s h e Sm M1 M2 M3) as (s' & E1 & E2 & _). exists s'. auto.
  - destruct M. apply sim_set_quad; assumption.
  - eexists. split; [reflexivity|apply sim_update_g; exact Sm].
  - destruct M. eexists. split; [reflexivity|apply sim_optimize; assumption].
Qed.
Lemma sim_run cs : forall s h, gsim s h -> obeys h cs -> exists s', grun s cs = GOk s' /\ gsim s' (fold_left hnote cs h).
Proof.
  induction cs as [|c cs IH]; intros s h Sm O; [exists s; auto|]. destruct O as [M O]. destruct (sim_step s h c Sm M) as (s1 & E1 & Sm1).
  destruct (IH s1 _ Sm1 O) as (s2 & E2 & Sm2). exists s2. cbn [grun fold_left]. rewrite E1. cbn [gbind]. auto.
Qed.
Lemma sim_none : gsim empty_gmodel no_hist.
Proof.
  assert (Hk : heap_ok [] [] []).
  { constructor; try (constructor; fail); try reflexivity; cbn; try lia. intros id. unfold kept. destruct id; reflexivity. intros [|p]; discriminate. }
  constructor; cbn; try exact Hk; try lia; try (constructor; fail); try contradiction.
  - split; [|split]; constructor.
  - constructor; cbn; try (constructor; fail); try reflexivity; try (intros [|p]; discriminate); (split; [lia|intros [|p]; discriminate]).
Qed.
Lemma sim_gurobi cs : obeys no_hist cs -> exists s, grun empty_gmodel cs = GOk s /\ gsim s (history cs).
Proof. intros O. apply sim_run; [exact sim_none|exact O]. Qed.

(** ** values *)
Local Open Scope R_scope.
Lemma rsum_fold {A} (f : A -> R) l : fold_right Rplus 0 (map f l) = rsum f l.
Proof. induction l as [|a l IH]; [reflexivity|]. cbn [map fold_right]. rewrite rsum_cons, IH. reflexivity. Qed.
Lemma rsum_filter {A} (p : A -> bool) (f : A -> R) l : rsum f (filter p l) = rsum (fun a => if p a then f a else 0) l.
Proof. induction l as [|a l IH]; [reflexivity|]. cbn [filter]. rewrite (rsum_cons _ a l), <- IH. destruct (p a); [apply rsum_cons|ring]. Qed.
Lemma without_nth f X id : (id < length f)%nat -> nth id (without f X) 0 = if v_gone (nth id f no_v) then 0 else nth id X 0.
Proof.
  intros L. unfold without. set (g := fun i => _). rewrite (nth_indep _ 0 (g 0%nat)) by (rewrite map_length, seq_length; exact L).
  rewrite map_nth, seq_nth by exact L. reflexivity.
Qed.
Lemma live_mem (f : list (vfact R)) id : (id < length f)%nat -> mem id (live_v f) = negb (v_gone (nth id f no_v)).
Proof.
  intros L. apply eq_true_iff_eq. rewrite mem_In. unfold live_v. rewrite filter_In, in_seq. split; [intros [_ Q]; exact Q|intros Q; split; [lia|exact Q]].
Qed.
Lemma remaining_pos f X id : In id (live_v f) -> nth (pos (live_v f) id) (remaining f X) 0 = nth id X 0.
Proof. intros Hin. unfold remaining. exact (nth_map_pos (fun id => nth id X 0) (live_v f) id 0 Hin). Qed.
Lemma lin_terms f X l : Forall (fun t => (fst t < length f)%nat) l ->
  lin_at (terms1 (live_v f) l) (remaining f X) = rsum (fun t => snd t * nth (fst t) (without f X) 0) l.
Proof.
  intros F. unfold lin_at. rewrite rsum_fold. unfold terms1. rewrite rsum_map. cbn [fst snd]. rewrite rsum_filter. apply rsum_ext.
  intros [i c] Hin. rewrite Forall_forall in F. specialize (F _ Hin). cbn [fst snd] in *. rewrite without_nth, live_mem by exact F.
  destruct (v_gone (nth i f no_v)) eqn:E; cbn [negb]; [ring|]. rewrite remaining_pos; [reflexivity|]. apply mem_In. rewrite live_mem, E by exact F. reflexivity.
Qed.
Lemma quad_terms f X l : Forall (fun t => (fst (fst t) < length f)%nat /\ (snd (fst t) < length f)%nat) l ->
  quad_at (terms2 (live_v f) l) (remaining f X) = rsum (fun t => snd t * nth (fst (fst t)) (without f X) 0 * nth (snd (fst t)) (without f X) 0) l.
Proof.
  intros F. unfold quad_at. rewrite rsum_fold. unfold terms2. rewrite rsum_map. cbn [fst snd]. rewrite rsum_filter. apply rsum_ext.
  intros [[i j] c] Hin. rewrite Forall_forall in F. destruct (F _ Hin) as [F1 F2]. cbn [fst snd] in *. rewrite !without_nth, !live_mem by assumption.
  destruct (v_gone (nth i f no_v)) eqn:E1; cbn [negb andb]; [ring|]. destruct (v_gone (nth j f no_v)) eqn:E2; cbn [negb]; [ring|].
  rewrite !remaining_pos; [reflexivity| |]; apply mem_In; rewrite live_mem by assumption; [rewrite E2|rewrite E1]; reflexivity.
Qed.
(** a vector of coefficients by column *)
Lemma lin_coeffs f X (l : list (nat * R)) (co : nat -> R) : Forall (fun t => (fst t < length f)%nat) l ->
  (forall p id, nth_error (live_v f) p = Some id -> co p = assoc_sum id l) ->
  bigsum (length (live_v f)) (fun p => co p * nth p (remaining f X) 0) = rsum (fun t => snd t * nth (fst t) (without f X) 0) l.
Proof.
  intros F C. rewrite <- (lin_terms f X l F). unfold lin_at. rewrite rsum_fold.
  rewrite <- (bigsum_assoc (length (live_v f)) (terms1 (live_v f) l) (fun i => nth i (remaining f X) 0)) by apply terms1_lt.
  apply bigsum_ext. intros p Hp. f_equal. destruct (nth_error (live_v f) p) as [id|] eqn:E; [|apply nth_error_None in E; lia].
  rewrite (C p id E). symmetry. apply assoc_sum_terms; [|exact E]. unfold live_v. apply NoDup_filter, seq_NoDup.
Qed.
Lemma aff_pairs e X : wf_aff e -> aff_value e X = a_const e + rsum (fun t => snd t * nth (fst t) X 0) (pairs e).
Proof.
  intros W. rewrite aff_value_sum. f_equal. unfold pairs, wf_aff in *. generalize dependent (a_coeffs e). generalize (a_vars e). intros v.
  induction v as [|a v IH]; intros [|c cs] L; try discriminate; [reflexivity|]. cbn [combine]. rewrite !rsum_cons, IH by (cbn in L; lia). reflexivity.
Qed.
Lemma pairs_range n e : Forall (fun v => (v < n)%nat) (a_vars e) -> Forall (fun t => (fst t < n)%nat) (pairs e).
Proof. intros F. apply Forall_forall. intros [v c] Hin. apply in_combine_l in Hin. rewrite Forall_forall in F. exact (F v Hin). Qed.
Lemma pairs2_range n q : below n q -> Forall (fun t => (fst (fst t) < n)%nat /\ (snd (fst t) < n)%nat) (pairs2 q).
Proof.
  intros (_ & F & G). apply Forall_forall. intros [[a b] c] Hin. apply in_combine_l in Hin. rewrite Forall_forall in F, G.
  split; [exact (F a (in_combine_l _ _ _ _ Hin))|exact (G b (in_combine_r _ _ _ _ Hin))].
Qed.
Lemma quad_pairs q X : wf_quad q -> quad_value q X = aff_value (q_aff q) X + rsum (fun t => snd t * nth (fst (fst t)) X 0 * nth (snd (fst t)) X 0) (pairs2 q).
Proof.
  intros (_ & W1 & W2). rewrite quad_value_sum. f_equal. unfold pairs2. generalize dependent (q_coeffs q). generalize (q_vars2 q). generalize (q_vars1 q). intros v.
  induction v as [|a v IH]; intros [|b w] [|c cs] L1 L2; try discriminate; [reflexivity|]. cbn [combine]. rewrite !rsum_cons, IH by (cbn in *; lia). reflexivity.
Qed.

Definition wf_hist (h : ghist R) : Prop := Forall (fun c => wf_aff (c_expr c)) (h_c h) /\ Forall wf_quad (h_q h) /\ wf_quad (h_obj h).
Lemma wf_step h c : may h c -> wf_hist h -> wf_hist (hnote h c).
Proof.
  intros M (W1 & W2 & W3). destruct c; cbn [may hnote] in *; (split; [|split]); cbn [hist_v hist_c hist_obj h_c h_q h_obj]; try assumption.
  - apply Forall_app. split; [exact W1|]. constructor; [apply M|constructor].
  - apply Forall_app. split; [exact W2|]. constructor; [apply M|constructor].
  - clear M. revert W1. generalize (h_c h). induction cnts as [|a r IH]; intros f W1; [exact W1|]. cbn [fold_left]. apply IH. unfold lose_c.
    apply Forall_forall. intros c Hin. apply (In_nth _ _ no_c) in Hin as (i & Hi & <-). rewrite set_nth_length in Hi. rewrite set_nth_nth.
    rewrite Forall_forall in W1. destruct (Nat.eqb_spec i a) as [->|]; cbn [andb]; [|apply W1, nth_In, Hi].
    destruct (a <? length f)%nat; cbn [c_expr]; apply W1, nth_In, Hi.
  - split; [apply M|split; reflexivity].
  - apply M.
Qed.
Lemma wf_run cs : forall h, obeys h cs -> wf_hist h -> wf_hist (fold_left hnote cs h).
Proof. induction cs as [|c cs IH]; intros h O W; [exact W|]. destruct O as [M O]. cbn [fold_left]. apply IH; [exact O|]. apply wf_step; assumption. Qed.
Lemma wf_none : wf_hist no_hist.
Proof. split; [constructor|]. split; [constructor|]. split; [reflexivity|split; reflexivity]. Qed.
