(** * C14: parallel and serial evaluation *)
From Coq Require Import List Arith Bool Lia Permutation.
From Verif Require Import BackendModel BackendProofs ParallelModel.
Import ListNotations.

(** ** evaluation *)
(** Whatever the order of the stores, the result vector is that of the serial loop. *)
Theorem C14_evaluation :
  forall (A : Type) (f : nat -> A) n order old, Permutation order (seq 0 n) -> length old = n ->
  eval_parallel f order old = eval_serial f n.
Proof.
  intros A f n order old P L. destruct n as [|n].
  { apply Permutation_sym, Permutation_nil in P. subst order. destruct old; [reflexivity|discriminate]. }
  assert (K : forall order out, length (eval_parallel f order out) = length out /\
    forall j, j < length out -> nth j (eval_parallel f order out) (f 0) = if existsb (Nat.eqb j) order then f j else nth j out (f 0)).
  { clear. intros order. induction order as [|i order IH]; intros out; [split; [reflexivity|intros; reflexivity]|]. unfold eval_parallel in *. cbn [fold_left].
    destruct (IH (set_nth out i (f i))) as [I1 I2]. rewrite set_nth_length in I1, I2. split; [exact I1|]. intros j Hj. rewrite (I2 j Hj), set_nth_nth. cbn [existsb].
    destruct (existsb (Nat.eqb j) order); [rewrite orb_true_r; reflexivity|]. rewrite orb_false_r. destruct (Nat.eqb_spec j i) as [->|N]; cbn [andb]; [|reflexivity].
    apply Nat.ltb_lt in Hj. rewrite Hj. reflexivity. }
  destruct (K order old) as [K1 K2]. unfold eval_serial. apply (nth_ext _ _ (f 0) (f 0)); [rewrite K1, map_length, seq_length; exact L|].
  intros j Hj. rewrite K1, L in Hj. rewrite K2 by lia. rewrite map_nth, seq_nth by exact Hj. cbn [Nat.add].
  replace (existsb (Nat.eqb j) order) with true; [reflexivity|]. symmetry. apply existsb_exists. exists j. split; [|apply Nat.eqb_refl].
  apply (Permutation_in j (Permutation_sym P)). apply in_seq. lia.
Qed.
Print Assumptions C14_evaluation.
Example C14_evaluation_ex : eval_parallel (fun i => 10 * i) [2; 0; 3; 1] [7; 7; 7; 7] = [0; 10; 20; 30].
Proof. reflexivity. Qed.

(** ** positions of an iteration in a schedule *)
Definition occ (i : nat) (s : list nat) : list nat := filter (fun p => nth p s 0 =? i) (seq 0 (length s)).
Definition cnt (i : nat) (s : list nat) : nat := count_occ Nat.eq_dec s i.
Lemma occ_snoc i s a : occ i (s ++ [a]) = occ i s ++ (if a =? i then [length s] else []).
Proof.
  unfold occ. rewrite app_length, seq_app, filter_app. cbn [length seq filter Nat.add]. rewrite app_nth2, Nat.sub_diag by lia. cbn [nth]. f_equal.
  apply filter_ext_in. intros p Hp. apply in_seq in Hp. rewrite app_nth1 by lia. reflexivity.
Qed.
Lemma cnt_snoc i s a : cnt i (s ++ [a]) = cnt i s + (if a =? i then 1 else 0).
Proof. unfold cnt. rewrite count_occ_app. cbn [count_occ]. destruct (Nat.eq_dec a i), (Nat.eqb_spec a i); congruence || lia. Qed.
Lemma occ_length i s : length (occ i s) = cnt i s.
Proof.
  induction s as [|a s IH] using rev_ind; [reflexivity|]. rewrite occ_snoc, cnt_snoc, app_length, IH. destruct (a =? i); reflexivity.
Qed.
(** the j-th position *)
Lemma occ_nth i s j : j < cnt i s -> nth j (occ i s) 0 < length s /\ nth (nth j (occ i s) 0) s 0 = i /\ cnt i (firstn (nth j (occ i s) 0) s) = j.
Proof.
  induction s as [|a s IH] using rev_ind; intros H; [cbn in H; lia|]. rewrite cnt_snoc in H. rewrite occ_snoc, app_length. cbn [length].
  destruct (Nat.lt_ge_cases j (cnt i s)) as [L|L].
  - destruct (IH L) as (A & B & C). rewrite app_nth1 by (rewrite occ_length; exact L). rewrite app_nth1 by exact A. rewrite firstn_app.
    replace (nth j (occ i s) 0 - length s) with 0 by lia. rewrite firstn_O, app_nil_r. auto with arith.
  - destruct (Nat.eqb_spec a i) as [->|N]; [|lia]. assert (j = cnt i s) by lia. subst j. rewrite app_nth2; rewrite occ_length; [|lia]. rewrite Nat.sub_diag. cbn [nth].
    split; [lia|]. rewrite app_nth2, Nat.sub_diag by lia. split; [reflexivity|]. rewrite firstn_app, Nat.sub_diag, firstn_O, app_nil_r, firstn_all. reflexivity.
Qed.
Lemma nth_occ s p : p < length s -> cnt (nth p s 0) (firstn p s) < cnt (nth p s 0) s /\ nth (cnt (nth p s 0) (firstn p s)) (occ (nth p s 0) s) 0 = p.
Proof.
  induction s as [|a s IH] using rev_ind; intros H; [cbn in H; lia|]. rewrite app_length in H. cbn [length] in H.
  destruct (Nat.lt_ge_cases p (length s)) as [L|L].
  - destruct (IH L) as (A & B). rewrite !app_nth1 by exact L. rewrite firstn_app. replace (p - length s) with 0 by lia. rewrite firstn_O, app_nil_r.
    rewrite cnt_snoc, occ_snoc. split; [lia|]. rewrite app_nth1 by (rewrite occ_length; exact A). exact B.
  - assert (p = length s) by lia. subst p. rewrite !app_nth2, Nat.sub_diag by lia. cbn [nth]. rewrite firstn_app, Nat.sub_diag, firstn_O, app_nil_r, firstn_all.
    rewrite cnt_snoc, occ_snoc, Nat.eqb_refl. split; [lia|]. rewrite app_nth2; rewrite occ_length; [|lia]. rewrite Nat.sub_diag. reflexivity.
Qed.

Section Convexify.
  Context {B : Type} (free : B) (wants : nat -> list B).
  Definition fresh (old : list B) : pool B := {| p_bounds := old; p_ids := fun _ => [] |}.
  Lemma adds_spec old s : (forall i, cnt i s <= length (wants i)) ->
    (forall i, p_ids (adds wants (fresh old) s) i = map (Nat.add (length old)) (occ i s)) /\
    p_bounds (adds wants (fresh old) s) = old ++ map (fun p => nth (cnt (nth p s 0) (firstn p s)) (wants (nth p s 0)) free) (seq 0 (length s)).
  Proof.
    induction s as [|a s IH] using rev_ind; intros H; [split; [reflexivity|cbn; symmetry; apply app_nil_r]|].
    destruct IH as [I1 I2]. { intros i. specialize (H i). rewrite cnt_snoc in H. lia. }
    unfold adds in *. rewrite fold_left_app. cbn [fold_left]. set (t := fold_left _ s _) in *.
    pose proof (H a) as Ha. rewrite cnt_snoc, Nat.eqb_refl in Ha.
    unfold add_one. rewrite (I1 a), map_length, occ_length. rewrite (nth_error_nth' _ free) by lia. cbn [p_ids p_bounds].
    assert (Lb : length (p_bounds t) = length old + length s) by (rewrite I2, app_length, map_length, seq_length; reflexivity).
    split.
    - intros i. unfold upd. rewrite occ_snoc, map_app. destruct (Nat.eqb_spec i a) as [->|N].
      + rewrite Nat.eqb_refl, Lb. reflexivity.
      + destruct (Nat.eqb_spec a i); [congruence|]. rewrite I1, app_nil_r. reflexivity.
    - rewrite I2, <- app_assoc. f_equal. rewrite app_length, seq_app, map_app. cbn [length seq map Nat.add].
      rewrite (app_nth2 s), Nat.sub_diag by lia. cbn [nth]. rewrite firstn_app, Nat.sub_diag, firstn_O, app_nil_r, firstn_all. f_equal.
      apply map_ext_in. intros p Hp. apply in_seq in Hp. rewrite app_nth1 by lia. rewrite firstn_app. replace (p - length s) with 0 by lia. rewrite firstn_O, app_nil_r. reflexivity.
  Qed.

  Lemma cnt_flat n i : cnt i (serial_order wants n) = if i <? n then length (wants i) else 0.
  Proof.
    unfold serial_order. induction n as [|n IH]; [reflexivity|]. rewrite seq_S, flat_map_app. unfold cnt in *. rewrite count_occ_app, IH. cbn [flat_map Nat.add]. rewrite app_nil_r.
    assert (K : forall k m, count_occ Nat.eq_dec (repeat k m) i = if k =? i then m else 0).
    { intros k m. induction m as [|m IHm]; cbn [repeat count_occ]; [destruct (k =? i); reflexivity|]. rewrite IHm. destruct (Nat.eq_dec k i), (Nat.eqb_spec k i); congruence || lia. }
    rewrite K. destruct (Nat.eqb_spec n i) as [->|N].
    - rewrite Nat.ltb_irrefl. destruct (Nat.ltb_spec i (S i)); lia.
    - destruct (Nat.ltb_spec i n), (Nat.ltb_spec i (S n)); lia.
  Qed.

  Definition moved (old : list B) (ser s : list nat) (v : nat) : nat :=
    if v <? length old then v else
    let p := v - length old in length old + nth (cnt (nth p ser 0) (firstn p ser)) (occ (nth p ser 0) s) 0.
End Convexify.

(** Adding a variable with its bounds taken as one step: whatever the order, the iterations get the
    variables of the serial loop up to a renaming that keeps the older variables and the bounds; so every
    term is built from renamed variables. *)
Theorem C14_convexify_partial :
  forall (B : Type) (free : B) (wants : nat -> list B) n old schedule, Permutation schedule (serial_order wants n) ->
  let par := adds wants (fresh old) schedule in let ser := adds wants (fresh old) (serial_order wants n) in
  let total := length (p_bounds ser) in
  exists rename : nat -> nat,
    (forall v, v < length old -> rename v = v) /\
    (forall v, v < total -> rename v < total) /\
    (forall v w, v < total -> w < total -> rename v = rename w -> v = w) /\
    length (p_bounds par) = total /\
    (forall v, v < total -> nth_error (p_bounds par) (rename v) = nth_error (p_bounds ser) v) /\
    (forall i, p_ids par i = map rename (p_ids ser i)) /\
    (forall i, i < n -> length (p_ids ser i) = length (wants i)) /\
    (forall E (build : nat -> list nat -> E), built build par n = map (fun i => build i (map rename (p_ids ser i))) (seq 0 n)).
Proof.
  intros B free wants n old s P par ser total. set (so := serial_order wants n) in *.
  assert (Cs : forall i, cnt i s = cnt i so) by (intros i; apply Permutation_count_occ; exact P).
  assert (Ls : length s = length so) by (apply Permutation_length; exact P).
  assert (Co : forall i, cnt i so <= length (wants i)) by (intros i; unfold so; rewrite cnt_flat; destruct (i <? n); lia).
  destruct (adds_spec free wants old so Co) as [S1 S2]. fold ser in S1, S2.
  destruct (adds_spec free wants old s) as [P1 P2]; [intros i; rewrite Cs; apply Co|]. fold par in P1, P2.
  assert (Lt : total = length old + length so) by (unfold total; rewrite S2, app_length, map_length, seq_length; reflexivity).
  assert (Lp : length (p_bounds par) = total) by (rewrite P2, app_length, map_length, seq_length; lia).
  exists (moved old so s).
  (* what a new variable is renamed to *)
  assert (M : forall p, p < length so -> let q := nth (cnt (nth p so 0) (firstn p so)) (occ (nth p so 0) s) 0 in
    moved old so s (length old + p) = length old + q /\ q < length s /\ nth q s 0 = nth p so 0 /\ cnt (nth p so 0) (firstn q s) = cnt (nth p so 0) (firstn p so)).
  { intros p Hp q. destruct (nth_occ so p Hp) as [A1 A2]. destruct (occ_nth (nth p so 0) s (cnt (nth p so 0) (firstn p so))) as (B1 & B2 & B3); [rewrite Cs; exact A1|].
    fold q in B1, B2, B3. split; [|auto]. unfold moved. destruct (Nat.ltb_spec (length old + p) (length old)); [lia|]. replace (length old + p - length old) with p by lia. reflexivity. }
  assert (Mo : forall v, v < length old -> moved old so s v = v) by (intros v Hv; unfold moved; destruct (Nat.ltb_spec v (length old)); [reflexivity|lia]).
  assert (New : forall v, v < total -> v < length old \/ exists p, v = length old + p /\ p < length so).
  { intros v Hv. destruct (Nat.lt_ge_cases v (length old)); [left; assumption|]. right. exists (v - length old). lia. }
  assert (Ids : forall i, p_ids par i = map (moved old so s) (p_ids ser i)).
  { intros i. rewrite P1, S1, map_map. apply (nth_ext _ _ (length old + 0) (moved old so s (length old + 0))).
    - rewrite !map_length, !occ_length. apply Cs.
    - intros j Hj. rewrite map_length, occ_length, Cs in Hj.
      rewrite (map_nth (Nat.add (length old)) (occ i s) 0 j), (map_nth (fun x => moved old so s (length old + x)) (occ i so) 0 j).
      destruct (occ_nth i so j Hj) as (A1 & A2 & A3). destruct (M _ A1) as (M1 & _). rewrite M1, A2, A3. reflexivity. }
  split; [exact Mo|]. split; [|split; [|split; [exact Lp|split; [|split; [exact Ids|split]]]]].
  - intros v Hv. destruct (New v Hv) as [Ho|(p & -> & Hp)]; [rewrite Mo by exact Ho; exact Hv|]. destruct (M p Hp) as (-> & A & _). lia.
  - intros v w Hv Hw E. destruct (New v Hv) as [Ho|(p & -> & Hp)], (New w Hw) as [Ho'|(p' & -> & Hp')].
    + rewrite !Mo in E by assumption. exact E.
    + rewrite (Mo v Ho) in E. destruct (M p' Hp') as (E2 & _). rewrite E2 in E. lia.
    + rewrite (Mo w Ho') in E. destruct (M p Hp) as (E1 & _). rewrite E1 in E. lia.
    + pose proof (M p Hp) as K1. pose proof (M p' Hp') as K2. cbv zeta in K1, K2.
      set (q := nth _ (occ (nth p so 0) s) 0) in K1. set (q' := nth _ (occ (nth p' so 0) s) 0) in K2. clearbody q q'.
      destruct K1 as (E1 & A1 & B1 & C1), K2 as (E2 & A2 & B2 & C2). rewrite E1, E2 in E. apply Nat.add_cancel_l in E. subst q'.
      destruct (nth_occ so p Hp) as [_ N1]. destruct (nth_occ so p' Hp') as [_ N2]. rewrite <- C1 in N1. rewrite <- C2 in N2. congruence.
  - intros v Hv. destruct (New v Hv) as [Ho|(p & -> & Hp)].
    + rewrite Mo by exact Ho. rewrite P2, S2, !nth_error_app1 by exact Ho. reflexivity.
    + destruct (M p Hp) as (-> & A & Bq & Cq). rewrite P2, S2, !nth_error_app2 by lia. rewrite !Nat.add_sub_swap, !Nat.sub_diag by lia. cbn [Nat.add].
      rewrite !nth_error_map. rewrite !(nth_error_nth' _ 0) by (rewrite seq_length; assumption). rewrite !seq_nth by assumption. cbn [option_map Nat.add]. rewrite Bq, Cq. reflexivity.
  - intros i Hi. rewrite S1, map_length, occ_length. unfold so. rewrite cnt_flat. destruct (Nat.ltb_spec i n); [reflexivity|lia].
  - intros E build. unfold built. apply map_ext. intros i. rewrite Ids. reflexivity.
Qed.
Print Assumptions C14_convexify_partial.

(** Missing above: the numbering does depend on the order, so the expressions are not those of the serial
    loop. *)
Theorem C14_same_numbers_refuted :
  exists (wants : nat -> list nat) n schedule, Permutation schedule (serial_order wants n) /\
    built (fun _ ids => ids) (adds wants (fresh []) schedule) n <> built (fun _ ids => ids) (adds wants (fresh []) (serial_order wants n)) n.
Proof.
  exists (fun _ => [0]), 2, [1; 0]. split; [apply perm_swap|]. vm_compute. discriminate.
Qed.
Print Assumptions C14_same_numbers_refuted.
Example C14_convexify_ex : let w i := repeat i 2 in
  p_ids (adds w (fresh [9]) [1; 0; 0; 1]) 1 = [1; 4] /\ p_bounds (adds w (fresh [9]) [1; 0; 0; 1]) = [9; 1; 0; 0; 1] /\
  p_bounds (adds w (fresh [9]) (serial_order w 2)) = [9; 0; 0; 1; 1].
Proof. repeat split. Qed.

(** ** the steps of addVar and setVarBounds interleaved *)
(** no store of bounds happens while another thread is replacing the buffer *)
Definition quiet {B} (free : B) (wants : nat -> list B) (s : shared B) (schedule : list nat) : Prop :=
  forall pre i post, schedule = pre ++ i :: post ->
    let t := small_steps free wants s pre in h_phase t i = Unset -> match h_new t with Some (_, Some _) => False | _ => True end.

Record safe {B} (free : B) (wants : nat -> list B) (old : list B) (t : shared B) : Prop := {
  s_lock : forall i, h_phase t i = Growing -> exists c, h_new t = Some (i, c);
  s_copy : forall i b, h_new t = Some (i, Some b) -> b = h_buf t ++ [free];
  s_range : forall i j id, nth_error (h_ids t i) j = Some id -> length old <= id < length (h_buf t);
  s_distinct : forall i j i' j' id, nth_error (h_ids t i) j = Some id -> nth_error (h_ids t i') j' = Some id -> i = i' /\ j = j';
  s_unset : forall i, h_phase t i = Unset -> h_ids t i <> [];
  s_set : forall i j id, nth_error (h_ids t i) j = Some id -> (h_phase t i = Unset -> S j < length (h_ids t i)) ->
            nth id (h_buf t) free = nth j (wants i) free;
  s_le : forall i, length (h_ids t i) <= length (wants i);
  s_lt : forall i, h_phase t i = Growing -> length (h_ids t i) < length (wants i);
  s_old : forall v, v < length old -> nth v (h_buf t) free = nth v old free;
  s_len : length old <= length (h_buf t) }.

Lemma nth_error_snoc {A} (l : list A) a j x : nth_error (l ++ [a]) j = Some x -> nth_error l j = Some x \/ (j = length l /\ x = a).
Proof.
  intros H. destruct (Nat.lt_ge_cases j (length l)) as [L|L]; [left; rewrite nth_error_app1 in H by exact L; exact H|].
  rewrite nth_error_app2 in H by exact L. destruct (j - length l) as [|k] eqn:E; [|destruct k; discriminate]. injection H as <-. right. split; [lia|reflexivity].
Qed.

Section Safe.
  Context {B : Type} (free : B) (wants : nat -> list B) (old : list B).
  (** taking the larger buffer, or appending in place *)
  Lemma safe_install (t : shared B) i cap : safe free wants old t -> h_phase t i = Growing ->
    safe free wants old {| h_buf := h_buf t ++ [free]; h_cap := cap; h_new := None; h_ids := upd (h_ids t) i (h_ids t i ++ [length (h_buf t)]); h_phase := upd (h_phase t) i Unset |}.
  Proof.
    intros S Hp.
    assert (Old : forall k j id, nth_error (upd (h_ids t) i (h_ids t i ++ [length (h_buf t)]) k) j = Some id ->
      nth_error (h_ids t k) j = Some id \/ (k = i /\ j = length (h_ids t i) /\ id = length (h_buf t))).
    { intros k j id H. unfold upd in H. destruct (Nat.eqb_spec k i) as [->|N]; [|left; exact H]. apply nth_error_snoc in H as [H|[-> ->]]; auto. }
    pose proof (s_range _ _ _ _ S) as Rg. pose proof (s_len _ _ _ _ S) as Ln.
    constructor; cbn [h_buf h_cap h_new h_ids h_phase].
    - intros k H. unfold upd in H. destruct (Nat.eqb_spec k i); [discriminate|]. apply (s_lock _ _ _ _ S) in H as (c & H). apply (s_lock _ _ _ _ S) in Hp as (c' & Hp). congruence.
    - intros; discriminate.
    - intros k j id H. rewrite app_length. cbn [length]. apply Old in H as [H|(-> & -> & ->)]; [apply Rg in H; lia|lia].
    - intros k j k' j' id H H'. apply Old in H as [H|(-> & -> & ->)]; apply Old in H' as [H'|(-> & -> & E)].
      + eapply (s_distinct _ _ _ _ S); eassumption.
      + subst id. apply Rg in H. lia.
      + apply Rg in H'. lia.
      + auto.
    - intros k H. unfold upd in *. destruct (Nat.eqb_spec k i); [|apply (s_unset _ _ _ _ S); exact H]. intros E. apply app_eq_nil in E as [_ E]. discriminate.
    - intros k j id H Hs. pose proof (Old _ _ _ H) as [H1|(-> & -> & ->)].
      + rewrite app_nth1 by (apply Rg in H1; lia). apply (s_set _ _ _ _ S k j id H1). unfold upd in Hs. destruct (Nat.eqb_spec k i) as [->|N]; [congruence|exact Hs].
      + unfold upd in Hs. rewrite Nat.eqb_refl, app_length in Hs. specialize (Hs eq_refl). cbn [length] in Hs. lia.
    - intros k. unfold upd. destruct (Nat.eqb_spec k i) as [->|N]; [|apply (s_le _ _ _ _ S)]. rewrite app_length. cbn [length]. apply (s_lt _ _ _ _ S) in Hp. lia.
    - intros k H. unfold upd in *. destruct (Nat.eqb_spec k i); [discriminate|]. apply (s_lt _ _ _ _ S). exact H.
    - intros v Hv. rewrite app_nth1 by lia. apply (s_old _ _ _ _ S). exact Hv.
    - rewrite app_length. lia.
  Qed.
  Lemma safe_step (t : shared B) i : safe free wants old t ->
    (h_phase t i = Unset -> match h_new t with Some (_, Some _) => False | _ => True end) -> safe free wants old (small_step free wants t i).
  Proof.
    intros S Q. unfold small_step. destruct (h_phase t i) eqn:Hp.
    - destruct (nth_error (wants i) (length (h_ids t i))) as [b|] eqn:Hw; [|exact S]. destruct (h_new t) as [?|] eqn:Hn; [exact S|].
      assert (length (h_ids t i) < length (wants i)) by (apply nth_error_Some; congruence).
      constructor; cbn [h_buf h_cap h_new h_ids h_phase].
      + intros k Hk. unfold upd in Hk. destruct (Nat.eqb_spec k i) as [Ek|N]; [rewrite Ek; eexists; reflexivity|]. apply (s_lock _ _ _ _ S) in Hk as (c & Hk). congruence.
      + intros k c E. destruct (_ <? _); [discriminate|]. injection E as _ <-. reflexivity.
      + apply (s_range _ _ _ _ S).
      + apply (s_distinct _ _ _ _ S).
      + intros k Hk. unfold upd in Hk. destruct (k =? i); [discriminate|]. apply (s_unset _ _ _ _ S). exact Hk.
      + intros k j id Hk Hs. apply (s_set _ _ _ _ S k j id Hk). intros U. apply Hs. unfold upd. destruct (Nat.eqb_spec k i) as [->|N]; [congruence|exact U].
      + apply (s_le _ _ _ _ S).
      + intros k Hk. unfold upd in Hk. destruct (Nat.eqb_spec k i) as [Ek|N]; [rewrite Ek; assumption|]. apply (s_lt _ _ _ _ S). exact Hk.
      + apply (s_old _ _ _ _ S).
      + apply (s_len _ _ _ _ S).
    - destruct (s_lock _ _ _ _ S i Hp) as (c & Hn). rewrite Hn. destruct c as [b|].
      + rewrite (s_copy _ _ _ _ S _ _ Hn). apply safe_install; assumption.
      + apply safe_install; assumption.
    - specialize (Q eq_refl). pose proof (s_unset _ _ _ _ S i Hp) as Ne. destruct (exists_last Ne) as (ids & id0 & E0).
      assert (Hl : last (h_ids t i) 0 = id0) by (rewrite E0; apply last_last). rewrite Hl.
      assert (Hl' : nth_error (h_ids t i) (length (h_ids t i) - 1) = Some id0).
      { rewrite E0, app_length, nth_error_app2; cbn [length]; [|lia]. replace (length ids + 1 - 1 - length ids) with 0 by lia. reflexivity. }
      pose proof (s_range _ _ _ _ S _ _ _ Hl') as R0.
      constructor; cbn [h_buf h_cap h_new h_ids h_phase]; rewrite ?set_nth_length.
      + intros k Hk. unfold upd in Hk. destruct (Nat.eqb_spec k i); [discriminate|]. apply (s_lock _ _ _ _ S). exact Hk.
      + intros k b Hn. exfalso. destruct (h_new t) as [[? [?|]]|]; [exact Q|discriminate|discriminate].
      + apply (s_range _ _ _ _ S).
      + apply (s_distinct _ _ _ _ S).
      + intros k Hk. unfold upd in Hk. destruct (Nat.eqb_spec k i); [discriminate|]. apply (s_unset _ _ _ _ S). exact Hk.
      + intros k j id Hk Hs. rewrite set_nth_nth. destruct (Nat.eqb_spec id id0) as [->|N]; cbn [andb].
        * destruct (s_distinct _ _ _ _ S _ _ _ _ _ Hk Hl') as [-> ->]. destruct (Nat.ltb_spec id0 (length (h_buf t))); [reflexivity|lia].
        * apply (s_set _ _ _ _ S k j id Hk). intros U. destruct (Nat.eq_dec k i) as [->|Nk].
          -- assert (j < length (h_ids t i)) by (apply nth_error_Some; congruence). destruct (Nat.eq_dec j (length (h_ids t i) - 1)) as [->|]; [congruence|lia].
          -- apply Hs. unfold upd. destruct (Nat.eqb_spec k i); [congruence|exact U].
      + apply (s_le _ _ _ _ S).
      + intros k Hk. unfold upd in Hk. destruct (Nat.eqb_spec k i); [discriminate|]. apply (s_lt _ _ _ _ S). exact Hk.
      + intros v Hv. rewrite set_nth_nth. destruct (Nat.eqb_spec v id0); [lia|]. apply (s_old _ _ _ _ S). exact Hv.
      + apply (s_len _ _ _ _ S).
  Qed.
End Safe.

(** Without a store during a replacement of the buffer: when all iterations have finished, every one has its
    own variables with the bounds it asked for, and the older variables keep theirs. *)
Theorem C14_bounds_partial :
  forall (B : Type) (free : B) (wants : nat -> list B) n old cap schedule,
  let t := small_steps free wants (start old cap) schedule in
  quiet free wants (start old cap) schedule -> finished wants t n ->
  (forall i, i < n -> length (h_ids t i) = length (wants i) /\
     forall j id, nth_error (h_ids t i) j = Some id -> length old <= id /\ nth_error (h_buf t) id = nth_error (wants i) j) /\
  (forall i j i' j' id, nth_error (h_ids t i) j = Some id -> nth_error (h_ids t i') j' = Some id -> i = i' /\ j = j') /\
  (forall v, v < length old -> nth_error (h_buf t) v = nth_error old v).
Proof.
  intros B free wants n old cap schedule t Q F.
  assert (S : safe free wants old t).
  { unfold t. clear F t. induction schedule as [|i s IH] using rev_ind.
    - constructor; cbn; try (intros; discriminate); try (intros i [|j]; intros; discriminate); try lia; auto with arith.
    - unfold small_steps in *. rewrite fold_left_app. cbn [fold_left]. apply safe_step.
      + apply IH. intros pre k post E. apply (Q pre k (post ++ [i])). rewrite E, <- app_assoc. reflexivity.
      + apply (Q s i []). reflexivity. }
  split; [|split].
  - intros i Hi. destruct (F i Hi) as [Fp Fl]. split; [exact Fl|]. intros j id H. pose proof (s_range _ _ _ _ S _ _ _ H) as Rg. split; [lia|].
    assert (Hj : j < length (h_ids t i)) by (apply nth_error_Some; congruence).
    rewrite (nth_error_nth' _ free) by lia. rewrite (nth_error_nth' _ free) by lia. f_equal. apply (s_set _ _ _ _ S i j id H). congruence.
  - apply (s_distinct _ _ _ _ S).
  - intros v Hv. pose proof (s_len _ _ _ _ S). rewrite !(nth_error_nth' _ free) by lia. f_equal. apply (s_old _ _ _ _ S). exact Hv.
Qed.
Print Assumptions C14_bounds_partial.

(** Missing above: a store into the buffer that is being replaced is lost, and the variable keeps the bounds
    addVar gave it (for a hinge variable: no lower bound instead of 0). *)
Theorem C14_lost_bounds_refuted :
  exists (free : nat) wants n old cap schedule, let t := small_steps free wants (start old cap) schedule in
    finished wants t n /\ exists i j id, i < n /\ nth_error (h_ids t i) j = Some id /\ nth_error (h_buf t) id = Some free /\ nth_error (wants i) j <> Some free.
Proof.
  exists 0, (fun i => if i <? 2 then [5] else []), 2, [7], 2, [0; 0; 1; 0; 1; 1]. split.
  - intros [|[|i]] Hi; [repeat split|repeat split|lia].
  - exists 0, 0, 1. split; [lia|]. repeat split. discriminate.
Qed.
Print Assumptions C14_lost_bounds_refuted.
(** an interleaving without such a store, with the buffer replaced once *)
Example C14_bounds_ex : let w i := if i <? 2 then [5 + i] else [] in let sch := [0; 0; 1; 1; 0; 1] in
  quiet 0 w (start [7] 2) sch /\ finished w (small_steps 0 w (start [7] 2) sch) 2 /\ h_buf (small_steps 0 w (start [7] 2) sch) = [7; 5; 6].
Proof.
  cbv zeta. split; [|split; [intros [|[|i]] Hi; [repeat split|repeat split|lia]|reflexivity]].
  intros pre i post E. destruct pre as [|a [|b [|c [|d [|e [|f pre]]]]]]; injection E; intros; subst; cbn in *; try exact I; try discriminate. destruct pre; discriminate.
Qed.
