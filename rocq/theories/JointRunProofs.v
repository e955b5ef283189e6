(** * Proofs about joint space problems: every set is affine in the variables *)
From Coq Require Import List Bool Arith Reals Lra Lia.
From Verif Require Import Num NumFacts RSums Common IfoptModel IfoptProofs NodesModel JointCntModel JointCntProps ExprsModel ExprsProps QpModel QpSpec QpProofs QpProps QpCaseProps SqpRunSpec JointRunModel JointRunSpec.
From Verif Require RunProps.
Import ListNotations.
Local Open Scope R_scope.

(** ** Affine rows *)
Record arow := { a_jac : srow R; a_bnd : bnd R; a_w : R }.
Definition value (x : list R) (r : arow) : R := srow_dot (a_jac r) x.
Definition crow_at (x : list R) (r : arow) : crow := {| r_jac := a_jac r; r_val := value x r; r_bnd := a_bnd r; r_w := a_w r |}.
Definition affine (n : nat) (t : term R) (rs : list arow) : Prop :=
  tm_dyn t = false /\ wf_term t /\ forall x, length x = n -> tm_at t x = {| cm_rows := length rs; cm_vals := map (value x) rs; cm_coeffs := map a_w rs; cm_jac := map a_jac rs; cm_bounds := map a_bnd rs |}.
Definition row_ok (n : nat) (r : arow) : Prop :=
  Forall (fun p => (fst p < n)%nat /\ (snd p = 0 \/ / 10 ^ 7 <= Rabs (snd p))) (a_jac r) /\ proper (a_bnd r) /\ 0 < a_w r.
Definition viol (x : list R) (r : arow) : R := bound_viol (a_bnd r) (value x r).

Lemma affine_rows n t rs x : affine n t rs -> length x = n -> term_rows x t = map (crow_at x) rs.
Proof.
  intros (_ & _ & H) Lx. unfold term_rows, comp_rows. rewrite (H x Lx). cbn [cm_jac cm_vals cm_bounds cm_coeffs].
  clear H. induction rs as [|r rs IH]; [reflexivity|]. cbn [map rows_of]. f_equal. apply IH.
Qed.
Lemma affine_comp n t rs x : affine n t rs -> length x = n -> comp_ok (tm_at t x) /\ cm_rows (tm_at t x) = length rs /\ cm_jac (tm_at t x) = map a_jac rs /\ cm_bounds (tm_at t x) = map a_bnd rs /\ cm_coeffs (tm_at t x) = map a_w rs.
Proof. intros (_ & _ & H) Lx. rewrite (H x Lx). unfold comp_ok. cbn. rewrite !map_length. split; [auto|]. auto. Qed.
Lemma affine_usable n t rs x ty : affine n t rs -> length x = n -> Forall (row_ok n) rs -> Forall (fun r => role_type ty (type_of (a_bnd r))) rs -> usable ty n x t.
Proof.
  intros A Lx F G. destruct (affine_comp n t rs x A Lx) as (K1 & _ & K2 & K3 & _). split; [exact K1|]. rewrite K2, K3, !Forall_map. rewrite Forall_forall in F, G. split; apply Forall_forall.
  - intros r Hr. destruct (F r Hr) as (J & _). eapply Forall_impl; [|exact J]. cbn. tauto.
  - intros r Hr. destruct (F r Hr) as (_ & P & _). split; [exact P|apply G, Hr].
Qed.
Lemma row_linear n x y r : row_ok n r -> linear x (crow_at x r) y = value y r.
Proof.
  intros (J & _). unfold linear, crow_at, value. cbn [r_val r_jac]. replace (thr_row (a_jac r)) with (a_jac r); [ring|]. unfold thr_row.
  induction J as [|cv l (_ & Hc) _ IH]; [reflexivity|]. cbn [map]. rewrite <- IH, thr_id by exact Hc. destruct cv; reflexivity.
Qed.
Lemma rows_exact n t rs x : affine n t rs -> length x = n -> exact_viol x t = rsum (viol x) rs.
Proof. intros A Lx. unfold exact_viol. rewrite (affine_rows n t rs x A Lx), rsum_map. reflexivity. Qed.
Lemma rows_square n t rs x : affine n t rs -> length x = n -> exact_square x t = rsum (fun r => a_w r * viol x r ^ 2) rs.
Proof. intros A Lx. unfold exact_square. rewrite (affine_rows n t rs x A Lx), rsum_map. reflexivity. Qed.
Lemma rows_penalty n t rs x y : affine n t rs -> Forall (row_ok n) rs -> length x = n -> set_penalty x y t = rsum (fun r => a_w r * viol y r) rs.
Proof.
  intros A F Lx. unfold set_penalty. rewrite (affine_rows n t rs x A Lx), rsum_map. apply rsum_ext. intros r Hr. rewrite Forall_forall in F. rewrite (row_linear n) by (apply F, Hr). reflexivity.
Qed.
Lemma at_value_equal (v : R) : at_value v = equal_to v.
Proof. reflexivity. Qed.
Lemma rows_gn n t rs x y : affine n t rs -> Forall (fun r => exists v, a_bnd r = at_value v) rs -> length x = n -> gn_cost x y t = rsum (fun r => a_w r * viol y r ^ 2) rs.
Proof.
  intros A F Lx. unfold gn_cost. rewrite (affine_rows n t rs x A Lx), rsum_map. apply rsum_ext. intros r Hr. rewrite Forall_forall in F. destruct (F r Hr) as (v & E).
  unfold gn, row_target, crow_at, viol. cbn [r_w r_val r_jac r_bnd]. rewrite E. unfold at_value, lo_or. cbn [b_lo]. change {| b_lo := Some v; b_hi := Some v |} with (equal_to v). rewrite viol_equal.
  rewrite <- !Rsqr_pow2, <- Rsqr_abs. unfold value. do 2 f_equal. ring.
Qed.
Lemma rows_at_pos n x ts rss : Forall2 (affine n) ts rss -> Forall (fun rs => rs <> []) rss -> length x = n -> (length ts <= rows_at x ts)%nat.
Proof.
  intros F N Lx. induction F as [|t rs ts rss A F IH]; [apply le_n|]. inversion_clear N. destruct (affine_comp n t rs x A Lx) as (_ & E & _).
  change (rows_at x (t :: ts)) with (cm_rows (tm_at t x) + rows_at x ts)%nat. rewrite E. cbn [length]. destruct rs; [congruence|]. cbn [length]. specialize (IH ltac:(assumption)). lia.
Qed.

(** ** Distances *)
Lemma viol_dist (b : bnd R) v : proper b -> bound_viol b v = dist b v.
Proof.
  intros P. rewrite bound_viol_abs. unfold dist. destruct (bound_cases b v P) as [(l & El & H & -> & _)|[(u & Eu & H & -> & _)|((A & B) & -> & _)]].
  - rewrite El. rewrite Rabs_left by lra. destruct (b_hi b) as [u|] eqn:Eu; [specialize (P l u El Eu); rewrite (Rmax_left (l - v)) by lra|rewrite (Rmax_left (l - v)) by lra]; rewrite Rmax_right by lra; lra.
  - rewrite Eu. rewrite Rabs_right by lra. destruct (b_lo b) as [l|] eqn:El; [specialize (P l u El Eu)|]; rewrite Rmax_right; rewrite ?Rmax_right; lra.
  - rewrite Rabs_R0. symmetry. apply Rmax_left. apply Rmax_lub; [destruct (b_lo b) as [l|]; [specialize (A l eq_refl); lra|lra]|destruct (b_hi b) as [u|]; [specialize (B u eq_refl); lra|lra]].
Qed.
Lemma dist_split (f : R -> R) (b : bnd R) v : f 0 = 0 -> proper b -> type_of b = RangeBound ->
  f (dist {| b_lo := b_lo b; b_hi := None |} v) + f (dist {| b_lo := None; b_hi := b_hi b |} v) = f (dist b v).
Proof.
  intros F P T. unfold type_of in T. destruct (b_lo b) as [l|] eqn:El; destruct (b_hi b) as [u|] eqn:Eu; try discriminate. clear T. specialize (P l u El Eu).
  unfold dist. rewrite El, Eu. cbn [b_lo b_hi]. destruct (Rle_dec v l) as [H|H].
  - replace (Rmax 0 (Rmax 0 (v - u))) with 0; [|rewrite (Rmax_left 0 (v - u)) by lra; rewrite Rmax_left by lra; reflexivity].
    rewrite (Rmax_left (l - v) 0), (Rmax_left (l - v) (v - u)) by lra. lra.
  - replace (Rmax 0 (Rmax (l - v) 0)) with 0; [|rewrite (Rmax_right (l - v) 0) by lra; rewrite Rmax_left by lra; reflexivity].
    destruct (Rle_dec v u) as [G|G].
    + rewrite (Rmax_left 0 (v - u)) by lra. rewrite (Rmax_left 0 0) by lra. rewrite (Rmax_left 0 (Rmax _ _)) by (apply Rmax_lub; lra). lra.
    + rewrite (Rmax_right 0 (v - u)) by lra. rewrite (Rmax_right (l - v) (v - u)) by lra. lra.
Qed.
Lemma proper_at (v : R) : proper (at_value v).
Proof. apply proper_equal. Qed.
Lemma type_at (v : R) : type_of (at_value v) = Equality.
Proof. apply type_equal. Qed.
Lemma dist_at t v : dist (at_value t) v = Rabs (v - t).
Proof. rewrite <- viol_dist by apply proper_at. apply (viol_equal t v). Qed.

(** ** The rows of a request *)
Definition described (n : nat) (q : request) (t : term R) (rs : list arow) : Prop :=
  affine n t rs /\ rs <> [] /\ Forall (row_ok n) rs /\
  (forall lo, lo <= 1 -> Forall (fun w => lo <= w) (coeffs_of q) -> Forall (fun r => lo <= a_w r) rs) /\
  (supported (q, AsConstraint) -> Forall (fun r => role_type IMerit (type_of (a_bnd r))) rs) /\
  (supported (q, AsCost PSquared) -> Forall (fun r => exists v, a_bnd r = at_value v) rs) /\
  forall x f, length x = n -> (forall w, f w 0 = 0) -> rsum (fun r => f (a_w r) (viol x r)) rs = total f x q.

Lemma kind_row_in k vs i j n dof : (min_vars k <= length vs)%nat -> (i < blocks k (length vs))%nat -> (j < dof)%nat -> Forall (fun v : var R => v_size v = dof /\ (v_index v + v_size v <= n)%nat) vs ->
  Forall (fun p => (fst p < n)%nat /\ (snd p = 0 \/ / 10 ^ 7 <= Rabs (snd p))) (kind_row k (fun i => nth i (map v_index vs) 0%nat) (length vs) i j).
Proof.
  intros Hm Hi Hj F. assert (B : forall t, (t < length vs)%nat -> (nth t (map v_index vs) 0 + j < n)%nat).
  { intros t Ht. rewrite (map_nth_in v_index vs t 0%nat var0) by exact Ht. rewrite Forall_forall in F. destruct (F (nth t vs var0) (nth_In _ _ Ht)). lia. }
  assert (N : / 10 ^ 7 <= 1) by lra.
  assert (A1 : / 10 ^ 7 <= Rabs (- (1))) by (rewrite Rabs_Ropp, Rabs_R1; exact N). assert (A2 : / 10 ^ 7 <= Rabs 1) by (rewrite Rabs_R1; exact N).
  assert (A3 : / 10 ^ 7 <= Rabs 3) by (rewrite Rabs_right; lra). assert (A4 : / 10 ^ 7 <= Rabs (- (3))) by (rewrite Rabs_Ropp; exact A3). assert (A5 : / 10 ^ 7 <= Rabs (- (2))) by (rewrite Rabs_Ropp, Rabs_right; lra).
  destruct k; cbn [kind_row min_vars blocks] in *; unfold vel_row, accel_row, jerk_row; try (destruct (Nat.ltb_spec i (length vs - 2))); try (destruct (Nat.ltb_spec i (length vs - 3))); cbv beta;
    repeat (apply Forall_cons; [split; [cbn [fst]; apply B; lia|right; cbn [snd]; rnum; assumption]|]); apply Forall_nil.
Qed.
Lemma in_blocks {A} nb dof (f : nat -> nat -> A) a : In a (over_blocks nb dof f) -> exists i j, (i < nb)%nat /\ (j < dof)%nat /\ a = f i j.
Proof.
  unfold over_blocks. rewrite in_flat_map. intros (i & Hi & H). apply in_map_iff in H as (j & <- & Hj). apply in_seq in Hi. apply in_seq in Hj. exists i, j. repeat split; lia.
Qed.
Lemma rsum_over {A} (g : A -> R) nb dof (f : nat -> nat -> A) : rsum g (over_blocks nb dof f) = rsum (fun i => rsum (fun j => g (f i j)) (seq 0 dof)) (seq 0 nb).
Proof. unfold over_blocks. rewrite rsum_flat_map. apply rsum_ext. intros i _. rewrite rsum_map. reflexivity. Qed.

Lemma diff_described n k targets vs coeffs t : placed_in n (RDiff k targets vs coeffs) -> request_set (RDiff k targets vs coeffs) = Val t ->
  exists rs, described n (RDiff k targets vs coeffs) t rs.
Proof.
  intros (F & Inc) E. cbn [request_set] in E. destruct (jcnt_new k targets vs coeffs) as [c| |] eqn:Ec; try discriminate. cbn [rbind] in E. injection E as <-.
  apply jcnt_new_inv in Ec as (K1 & K2 & K3 & Hm & Hd & K4 & f & K5 & K6 & K7). set (nb := blocks k (length vs)) in *. set (dof := length targets) in *.
  set (col := fun i => nth i (map v_index vs) 0%nat).
  set (row := fun i j => {| a_jac := kind_row k col (length vs) i j; a_bnd := at_value (nth j targets 0); a_w := f j |}).
  assert (Ew : forall j, (j < dof)%nat -> f j = weight (usual k) coeffs j).
  { intros j Hj. unfold weight, usual. destruct K6 as [(L & Ef)|[(-> & Ef)|(w & -> & Ef)]]; rewrite Ef; try assumption; [|destruct k; cbn; rnum; reflexivity|reflexivity].
    destruct coeffs as [|w [|w' ws]]; [cbn in L; lia| |reflexivity]. cbn in L. assert (j = 0)%nat by lia. subst j. reflexivity. }
  assert (Hv : forall x, length x = n -> forall i j, (i < nb)%nat -> (j < dof)%nat -> value x (row i j) = fdiff (order k) (joint vs x j) (base k (length vs) i)).
  { intros x Lx i j Hi Hj. unfold value, row. cbn [a_jac]. rewrite kind_row_dot. unfold col. eapply eq_trans; [|apply (kind_value_diff k (fun t j => joint vs x j t) (length vs) i j Hm Hi)].
    apply kind_value_ext; [exact Hm|exact Hi|]. intros s Hs. unfold joint. rewrite (map_nth_in v_index vs s 0%nat var0) by exact Hs. reflexivity. }
  exists (over_blocks nb dof row). split.
  { split; [reflexivity|]. split; [intros x y; reflexivity|]. intros x Lx. cbn [diff_set tm_at]. destruct (jcnt_at_spec c x) as (cx & E1 & E2 & E3).
    - rewrite K2. exact Hd.
    - rewrite K1, K3. exact Hm.
    - rewrite K3. exact Inc.
    - rewrite K2, K3, Lx. exact F.
    - rewrite K1, K2, K3 in E2, E3. rewrite E1. cbn [rbind]. rewrite E2, E3, K4, K5. cbn [entries]. rewrite !over_blocks_map, !over_blocks_length. f_equal.
      fold dof nb. apply over_blocks_ext. intros i j Hi Hj. rewrite (Hv x Lx i j Hi Hj). apply (kind_value_diff k (fun t j => joint vs x j t) (length vs) i j Hm Hi). }
  assert (Hnb : (0 < nb)%nat) by (unfold nb; destruct k; cbn [blocks min_vars] in *; lia). split.
  { intros Hz. apply (f_equal (@length _)) in Hz. rewrite over_blocks_length in Hz. cbn [length] in Hz. nia. }
  split; [apply Forall_forall; intros r Hr; apply in_blocks in Hr as (i & j & Hi & Hj & ->); split; [apply kind_row_in with (dof := dof); assumption|split; [apply proper_at|apply K7, Hj]]|].
  split. { intros lo Hlo Fl. apply Forall_forall. intros r Hr. apply in_blocks in Hr as (i & j & Hi & Hj & ->). cbn [row a_w]. rewrite Forall_forall in Fl. cbn [coeffs_of] in Fl.
    destruct K6 as [(L & Ef)|[(-> & Ef)|(w & -> & Ef)]]; rewrite Ef; try assumption; [apply Fl, nth_In; lia|destruct k; cbn; rnum; lra|apply Fl; left; reflexivity]. }
  split; [intros _; apply Forall_forall; intros r Hr; apply in_blocks in Hr as (i & j & Hi & Hj & ->); left; apply type_at|].
  split; [intros _; apply Forall_forall; intros r Hr; apply in_blocks in Hr as (i & j & Hi & Hj & ->); eexists; reflexivity|].
  intros x g Lx Hg. unfold total, asks. rewrite rsum_over, rsum_flat_map. change (match k with Vel => (length vs - 1)%nat | _ => length vs end) with nb. apply rsum_ext. intros i Hi. apply in_seq in Hi. rewrite rsum_map. fold dof. apply rsum_ext. intros j Hj. apply in_seq in Hj.
  cbn [fst snd]. unfold viol. rewrite Hv by lia. cbn [row a_w a_bnd]. rewrite Ew by lia. f_equal. apply (viol_equal (nth j targets 0)).
Qed.

(** positions: rows given by index, bounds and coefficient *)
Lemma pos_affine n (c : jpos R) : (v_index (jp_var c) + v_size (jp_var c) <= n)%nat -> (0 < v_size (jp_var c))%nat -> length (jp_coeffs c) = length (jp_index c) -> length (jp_bounds c) = length (jp_index c) -> Forall (fun i => (i < v_size (jp_var c))%nat) (jp_index c) ->
  affine n (pos_set c) (map (fun p => {| a_jac := [((v_index (jp_var c) + fst p)%nat, 1)]; a_bnd := fst (snd p); a_w := snd (snd p) |}) (combine (jp_index c) (combine (jp_bounds c) (jp_coeffs c)))).
Proof.
  intros Hn Hs L1 L2 Fi. split; [reflexivity|]. split; [intros x y; reflexivity|]. intros x Lx. cbn [pos_set tm_at]. unfold jpos_at, var_set. rewrite !(proj2 (Nat.ltb_lt _ _)) by lia. cbn [andb rbind].
  set (v' := {| v_name := _ |}). assert (Sv : v_size v' = v_size (jp_var c)) by (unfold v', v_size; cbn; rewrite firstn_length_le by (rewrite skipn_length; unfold v_size in Hn; lia); reflexivity).
  assert (V : jpos_values {| jp_var := v'; jp_index := jp_index c; jp_coeffs := jp_coeffs c; jp_bounds := jp_bounds c |} = Val (map (fun t => nth (v_index (jp_var c) + t) x 0) (jp_index c))).
  { unfold jpos_values. cbn [jp_var jp_index jp_coeffs]. rewrite Sv, L1, Nat.eqb_refl.
    replace (forallb _ _) with true; [|symmetry; apply forallb_forall; intros t Ht; rewrite Forall_forall in Fi; apply Nat.ltb_lt, Fi, Ht]. cbn [andb]. f_equal. apply map_ext_in. intros t Ht.
    rewrite Forall_forall in Fi. specialize (Fi t Ht). cbn [v' v_vals]. apply nth_segment; lia. }
  rewrite V. cbn [entries]. unfold jpos_jacobian. cbn [jp_index jp_var v_index v']. clear V Fi. rewrite !map_map. cbn [a_bnd a_w a_jac].
  assert (Val : forall i, srow_dot [((v_index (jp_var c) + i)%nat, 1)] x = nth (v_index (jp_var c) + i) x 0) by (intros i; rewrite srow_dot_R, rsum_cons, rsum_nil; cbn [fst snd]; lra).
  assert (G : forall (li : list nat) (lb : list (bnd R)) (lw : list R), length lw = length li -> length lb = length li ->
    length li = length (combine li (combine lb lw)) /\ map (fun t => nth (v_index (jp_var c) + t) x 0) li = map (fun p : nat * (bnd R * R) => value x {| a_jac := [((v_index (jp_var c) + fst p)%nat, 1)]; a_bnd := fst (snd p); a_w := snd (snd p) |}) (combine li (combine lb lw)) /\
    lw = map (fun p : nat * (bnd R * R) => snd (snd p)) (combine li (combine lb lw)) /\ map (fun i => [((v_index (jp_var c) + i)%nat, 1)]) li = map (fun p : nat * (bnd R * R) => [((v_index (jp_var c) + fst p)%nat, 1)]) (combine li (combine lb lw)) /\
    lb = map (fun p : nat * (bnd R * R) => fst (snd p)) (combine li (combine lb lw))).
  { induction li as [|i li IH]; intros [|b lb] [|w lw] A B; try discriminate; [repeat split|]. injection A as A. injection B as B. destruct (IH lb lw A B) as (G1 & G2 & G3 & G4 & G5). cbn [combine map length fst snd].
    split; [f_equal; exact G1|]. split; [f_equal; [unfold value; cbn [a_jac]; symmetry; apply Val|exact G2]|]. split; [f_equal; exact G3|]. split; [f_equal; exact G4|f_equal; exact G5]. }
  destruct (G (jp_index c) (jp_bounds c) (jp_coeffs c) L1 L2) as (G1 & G2 & G3 & G4 & G5). rewrite map_length. f_equal; assumption.
Qed.
Lemma pos_value x b m w : value x {| a_jac := [(m, 1)]; a_bnd := b; a_w := w |} = nth m x 0.
Proof. unfold value. cbn [a_jac]. rewrite srow_dot_R, rsum_cons, rsum_nil. cbn [fst snd]. lra. Qed.
Lemma pos_row_ok n m b w : (m < n)%nat -> proper b -> 0 < w -> row_ok n {| a_jac := [(m, 1)]; a_bnd := b; a_w := w |}.
Proof. intros Hm Hp Hw. split; [|split; [exact Hp|exact Hw]]. cbn [a_jac]. apply Forall_cons; [|apply Forall_nil]. split; [exact Hm|]. right. cbn [snd]. rewrite Rabs_R1. lra. Qed.
Lemma positive_in (coeffs : list R) : forallb positive coeffs = true -> forall w, In w coeffs -> 0 < w.
Proof. intros P w Hw. rewrite forallb_forall in P. specialize (P w Hw). unfold positive in P. apply Rltb_true in P. exact P. Qed.
(** one row per index *)
Definition one_row (m : nat) (idx : list nat) (b : nat -> bnd R) (w : nat -> R) : list arow := map (fun i => {| a_jac := [((m + i)%nat, 1)]; a_bnd := b i; a_w := w i |}) idx.
Lemma combine_one m idx (b : nat -> bnd R) w :
  map (fun p : nat * (bnd R * R) => {| a_jac := [((m + fst p)%nat, 1)]; a_bnd := fst (snd p); a_w := snd (snd p) |}) (combine idx (combine (map b idx) (map w idx))) = one_row m idx b w.
Proof. unfold one_row. induction idx as [|i idx IH]; [reflexivity|]. cbn [map combine fst snd]. f_equal. exact IH. Qed.
Lemma list_nth_map {A} (l : list A) d : l = map (fun i => nth i l d) (seq 0 (length l)).
Proof.
  apply (nth_ext _ _ d d); [rewrite map_length, seq_length; reflexivity|]. intros i Hi.
  rewrite (map_nth_in (fun i => nth i l d) (seq 0 (length l)) i d 0%nat) by (rewrite seq_length; exact Hi). rewrite seq_nth by exact Hi. reflexivity.
Qed.
Lemma weight_one d (coeffs : list R) j n : length coeffs = n -> (j < n)%nat -> weight d coeffs j = nth j coeffs 0.
Proof. intros L Hj. unfold weight. destruct coeffs as [|w [|w' ws]]; [cbn in L; lia| |reflexivity]. cbn in L. assert (j = 0)%nat by lia. subst j. reflexivity. Qed.
Lemma repeat_map {A} (a : A) n : repeat a n = map (fun _ => a) (seq 0 n).
Proof. generalize 0%nat. induction n as [|n IH]; intros s; [reflexivity|]. cbn [repeat seq map]. f_equal. apply IH. Qed.

Lemma target_described n targets v coeffs t : placed_in n (RTarget targets v coeffs) -> request_set (RTarget targets v coeffs) = Val t ->
  exists rs, described n (RTarget targets v coeffs) t rs.
Proof.
  intros (Sz & Pl) E. cbn [request_set] in E. destruct (jpos_target targets v coeffs) as [c| |] eqn:Ec; try discriminate. cbn [rbind] in E. injection E as <-.
  unfold jpos_target in Ec. destruct (Nat.eqb_spec (length targets) 0) as [|Hd]; [discriminate|]. destruct (forallb positive coeffs) eqn:Pos; [|discriminate]. cbn [negb] in Ec. pose proof (positive_in coeffs Pos) as Pw.
  set (cs := match coeffs with [c] => repeat c (length targets) | _ => coeffs end) in *. destruct (Nat.eqb_spec (length cs) (length targets)) as [Lc|]; [|discriminate]. cbn [negb] in Ec. injection Ec as <-.
  set (dof := length targets) in *.
  assert (W : cs = map (fun j => weight 1 coeffs j) (seq 0 dof)).
  { unfold cs in *. destruct coeffs as [|w [|w' ws]]; [cbn in Lc; lia|apply repeat_map|]. rewrite <- Lc at 1. apply (list_nth_map (w :: w' :: ws) 0). }
  assert (Iw : forall j, (j < dof)%nat -> In (weight 1 coeffs j) coeffs).
  { intros j Hj. unfold cs in Lc. unfold weight. destruct coeffs as [|w [|w' ws]]; [cbn in Lc; lia|left; reflexivity|]. apply nth_In. lia. }
  pose proof (pos_affine n {| jp_var := v; jp_index := seq 0 dof; jp_coeffs := cs; jp_bounds := map at_value targets |}) as A. cbn [jp_var jp_index jp_coeffs jp_bounds] in A.
  specialize (A Pl ltac:(lia) ltac:(rewrite seq_length; exact Lc) ltac:(rewrite seq_length, map_length; reflexivity)). specialize (A ltac:(apply Forall_forall; intros i Hi; apply in_seq in Hi; lia)).
  rewrite W in A. replace (map at_value targets) with (map (fun j => at_value (nth j targets 0)) (seq 0 dof)) in A; [|symmetry; rewrite (list_nth_map targets 0) at 1; rewrite map_map; reflexivity].
  rewrite combine_one in A. rewrite <- W in A. replace (map (fun j => at_value (nth j targets 0)) (seq 0 dof)) with (map at_value targets) in A; [|rewrite (list_nth_map targets 0) at 1; rewrite map_map; reflexivity].
  eexists. split; [exact A|]. split; [unfold one_row; destruct dof; [congruence|discriminate]|]. unfold one_row.
  split; [apply Forall_map, Forall_forall; intros j Hj; apply in_seq in Hj; apply pos_row_ok; [lia|apply proper_at|apply Pw, Iw; lia]|].
  split; [intros lo _ F; apply Forall_map, Forall_forall; intros j Hj; apply in_seq in Hj; rewrite Forall_forall in F; apply F, Iw; lia|].
  split; [intros _; apply Forall_map, Forall_forall; intros j Hj; left; apply type_at|].
  split; [intros _; apply Forall_map, Forall_forall; intros j Hj; eexists; reflexivity|].
  intros x f Lx Hf. unfold total, asks. rewrite !rsum_map. fold dof. apply rsum_ext. intros j Hj. cbn [fst snd a_w]. f_equal. unfold viol. rewrite pos_value. cbn [a_bnd]. apply (viol_equal (nth j targets 0)).
Qed.

(** the rows of the constructor from bounds *)
Fixpoint split_rows (m i : nat) (bs : list (bnd R)) (w : nat -> R) : list arow :=
  match bs with
  | [] => []
  | b :: bs => map (fun b => {| a_jac := [((m + i)%nat, 1)]; a_bnd := b; a_w := w i |})
                 match type_of b with RangeBound => [{| b_lo := b_lo b; b_hi := None |}; {| b_lo := None; b_hi := b_hi b |}] | _ => [b] end ++ split_rows m (S i) bs w
  end.
Lemma split_loop_rows m coeffs bs i rb ri rc : split_loop bs i coeffs = Val (rb, ri, rc) ->
  length rc = length ri /\ length rb = length ri /\ Forall (fun t => (i <= t < i + length bs)%nat) ri /\ (i + length bs <= length coeffs \/ bs = [])%nat /\
  map (fun p : nat * (bnd R * R) => {| a_jac := [((m + fst p)%nat, 1)]; a_bnd := fst (snd p); a_w := snd (snd p) |}) (combine ri (combine rb rc)) = split_rows m i bs (fun j => nth j coeffs 0).
Proof.
  revert i rb ri rc. induction bs as [|b bs IH]; intros i rb ri rc E; cbn [split_loop] in E.
  - injection E as <- <- <-. repeat (split; [reflexivity|]). split; [constructor|]. split; [right; reflexivity|reflexivity].
  - destruct (nth_error coeffs i) as [c|] eqn:Ec; [|discriminate]. pose proof (nth_error_nth coeffs i 0 Ec) as En. assert (Hi : (i < length coeffs)%nat) by (apply nth_error_Some; congruence).
    destruct (split_loop bs (S i) coeffs) as [[[rb' ri'] rc']| |] eqn:El; try discriminate. cbn [rbind] in E. destruct (IH _ _ _ _ El) as (L1 & L2 & F & B & G).
    assert (F' : Forall (fun t => (i <= t < i + length (b :: bs))%nat) ri') by (eapply Forall_impl; [|exact F]; cbn [length]; lia).
    assert (B' : (i + length (b :: bs) <= length coeffs)%nat) by (destruct B as [B| ->]; cbn [length] in *; lia).
    cbn [split_rows]. destruct (type_of b); injection E as <- <- <-; cbn [length combine map app fst snd]; rewrite G, En;
      (split; [lia|]); (split; [lia|]); (split; [repeat (apply Forall_cons; [cbn [length]; lia|]); exact F'|]); (split; [left; exact B'|]); reflexivity.
Qed.
Lemma halves_ok (b : bnd R) c : proper b -> In c match type_of b with RangeBound => [{| b_lo := b_lo b; b_hi := None |}; {| b_lo := None; b_hi := b_hi b |}] | _ => [b] end -> proper c.
Proof. intros P H. destruct (type_of b); cbn [In] in H; (destruct H as [<-|H]; [try exact P|try destruct H as [<-|H]; try contradiction]); intros l u; cbn; discriminate. Qed.
Lemma split_described n m bs (w : nat -> R) i : (m + i + length bs <= n)%nat -> Forall proper bs -> (forall j, (j < length bs)%nat -> 0 < w (i + j)%nat) ->
  Forall (row_ok n) (split_rows m i bs w) /\ (bs <> [] -> split_rows m i bs w <> []) /\
  (forall lo, (forall j, (j < length bs)%nat -> lo <= w (i + j)%nat) -> Forall (fun r => lo <= a_w r) (split_rows m i bs w)) /\
  (Forall (fun b => type_of b <> Unbounded) bs -> Forall (fun r => role_type IMerit (type_of (a_bnd r))) (split_rows m i bs w)) /\
  (Forall (fun b => exists t, b = at_value t) bs -> Forall (fun r => exists v, a_bnd r = at_value v) (split_rows m i bs w)) /\
  forall x f, (forall w, f w 0 = 0) -> rsum (fun r => f (a_w r) (viol x r)) (split_rows m i bs w) = rsum (fun j => f (w (i + j)%nat) (dist (nth j bs free) (nth (m + (i + j)) x 0))) (seq 0 (length bs)).
Proof.
  revert i. induction bs as [|b bs IH]; intros i Hn Hp Hw.
  - cbn [split_rows]. split; [constructor|]. split; [congruence|]. split; [constructor|]. split; [constructor|]. split; [constructor|]. reflexivity.
  - inversion_clear Hp as [|? ? Pb Pbs]. cbn [length] in *. destruct (IH (S i)) as (I1 & _ & I3 & I4 & I5 & I6); [lia|exact Pbs|intros j Hj; specialize (Hw (S j) ltac:(lia)); rewrite Nat.add_succ_r in Hw; exact Hw|].
    assert (W0 : 0 < w i) by (specialize (Hw 0%nat ltac:(lia)); rewrite Nat.add_0_r in Hw; exact Hw). cbn [split_rows].
    split; [apply Forall_app; split; [|exact I1]; apply Forall_map, Forall_forall; intros c Hc; apply pos_row_ok; [lia|apply (halves_ok b c Pb Hc)|exact W0]|].
    split; [intros _; destruct (type_of b); discriminate|].
    split. { intros lo Hlo. apply Forall_app. split; [|apply I3; intros j Hj; specialize (Hlo (S j) ltac:(lia)); rewrite Nat.add_succ_r in Hlo; exact Hlo].
      apply Forall_map, Forall_forall. intros c _. cbn [a_w]. specialize (Hlo 0%nat ltac:(lia)). rewrite Nat.add_0_r in Hlo. exact Hlo. }
    split. { intros Ht. inversion_clear Ht as [|? ? Tb Tbs]. apply Forall_app. split; [|apply I4, Tbs]. apply Forall_map, Forall_forall. intros c Hc. cbn [a_bnd]. destruct (type_of b) eqn:Tb'; [congruence| | | |]; cbn [In] in Hc.
      1-3: destruct Hc as [<-|[]]; rewrite Tb'; cbn; auto.
      unfold type_of in Tb'. destruct (b_lo b); destruct (b_hi b); try discriminate. destruct Hc as [<-|[<-|[]]]; cbn; auto. }
    split. { intros Ht. inversion_clear Ht as [|? ? Tb Tbs]. apply Forall_app. split; [|apply I5, Tbs]. apply Forall_map, Forall_forall. intros c Hc. cbn [a_bnd]. destruct Tb as (t & ->). rewrite type_at in Hc. destruct Hc as [<-|[]]. exists t. reflexivity. }
    intros x f Hf. rewrite rsum_app, rsum_map, I6 by exact Hf. cbn [seq]. rewrite rsum_cons, <- seq_shift, rsum_map. cbn [nth]. rewrite Nat.add_0_r. f_equal.
    + assert (Hv : forall c, In c match type_of b with RangeBound => [{| b_lo := b_lo b; b_hi := None |}; {| b_lo := None; b_hi := b_hi b |}] | _ => [b] end -> viol x {| a_jac := [((m + i)%nat, 1)]; a_bnd := c; a_w := w i |} = dist c (nth (m + i) x 0)).
      { intros c Hc. unfold viol. rewrite pos_value. cbn [a_bnd]. apply viol_dist, (halves_ok b c Pb Hc). }
      rewrite (rsum_ext _ (fun c => f (w i) (dist c (nth (m + i) x 0)))) by (intros c Hc; cbn [a_w]; rewrite (Hv c Hc); reflexivity).
      destruct (type_of b) eqn:Tb; rewrite ?rsum_cons, rsum_nil; try lra. rewrite Rplus_0_r. apply dist_split; [apply Hf|exact Pb|exact Tb].
    + apply rsum_ext. intros j _. rewrite Nat.add_succ_r. reflexivity.
Qed.
Lemma bounds_described n bs v coeffs split t : placed_in n (RBounds bs v coeffs split) -> request_set (RBounds bs v coeffs split) = Val t ->
  exists rs, described n (RBounds bs v coeffs split) t rs.
Proof.
  intros (Sz & Pl & Pp) E. cbn [request_set] in E. destruct (jpos_bounds bs v coeffs split) as [c| |] eqn:Ec; try discriminate. cbn [rbind] in E. injection E as <-.
  unfold jpos_bounds in Ec. destruct (Nat.eqb_spec (length bs) 0) as [|Hd]; [discriminate|]. destruct (forallb positive coeffs) eqn:Pos; [|discriminate]. cbn [negb] in Ec. pose proof (positive_in coeffs Pos) as Pw.
  set (dof := length bs) in *. assert (Hb : bs <> []) by (intros ->; apply Hd; reflexivity).
  assert (Q : exists cs, jpos_finish bs v coeffs split cs = Val c /\ cs = map (weight 1 coeffs) (seq 0 dof) /\ (forall j, (j < dof)%nat -> weight 1 coeffs j = 1 \/ In (weight 1 coeffs j) coeffs)).
  { destruct coeffs as [|w [|w' ws]].
    - eexists. split; [exact Ec|]. split; [apply repeat_map|]. intros; left; reflexivity.
    - eexists. split; [exact Ec|]. split; [apply repeat_map|]. intros; right; left; reflexivity.
    - destruct (Nat.eqb_spec (length (w :: w' :: ws)) dof) as [L|]; [|discriminate]. eexists. split; [exact Ec|]. split; [rewrite <- L; apply (list_nth_map (w :: w' :: ws) 0)|]. intros j Hj. right. apply nth_In. lia. }
  destruct Q as (cs & Ef & Ecs & Hw). clear Ec.
  assert (Hpos : forall j, (j < dof)%nat -> 0 < weight 1 coeffs j) by (intros j Hj; destruct (Hw j Hj) as [->|K]; [lra|apply Pw, K]).
  assert (Hlow : forall lo, lo <= 1 -> Forall (fun w => lo <= w) coeffs -> forall j, (j < dof)%nat -> lo <= weight 1 coeffs j) by (intros lo Hlo F j Hj; destruct (Hw j Hj) as [->|K]; [exact Hlo|rewrite Forall_forall in F; apply F, K]).
  unfold jpos_finish in Ef. destruct split.
  - destruct (split_loop bs 0 coeffs) as [[[rb ri] rc]| |] eqn:El; try discriminate. cbn [rbind fst snd] in Ef. injection Ef as <-.
    destruct (split_loop_rows (v_index v) coeffs bs 0 rb ri rc El) as (L1 & L2 & Fi & B & G). cbn [Nat.add] in B, Fi. destruct B as [B|B]; [|congruence]. fold dof in B, Fi.
    pose proof (pos_affine n {| jp_var := v; jp_index := ri; jp_coeffs := rc; jp_bounds := rb |}) as A. cbn [jp_var jp_index jp_coeffs jp_bounds] in A.
    specialize (A Pl ltac:(lia) L1 L2). specialize (A ltac:(eapply Forall_impl; [|exact Fi]; cbn; lia)). rewrite G in A.
    assert (Wn : forall j, (j < dof)%nat -> nth j coeffs 0 = weight 1 coeffs j).
    { intros j Hj. unfold weight. destruct coeffs as [|w [|w' ws]]; [cbn in B; lia| |reflexivity]. cbn in B. assert (j = 0)%nat by lia. subst j. reflexivity. }
    destruct (split_described n (v_index v) bs (fun j => nth j coeffs 0) 0) as (D1 & D2 & D3 & D4 & D5 & D6); [lia|exact Pp|intros j Hj; cbn [Nat.add]; rewrite Wn by exact Hj; apply Hpos, Hj|].
    exists (split_rows (v_index v) 0 bs (fun j => nth j coeffs 0)). split; [exact A|]. split; [apply D2, Hb|]. split; [exact D1|].
    split; [intros lo Hlo F; apply D3; intros j Hj; cbn [Nat.add]; rewrite Wn by exact Hj; apply Hlow; assumption|].
    split; [intros H; apply D4; eapply Forall_impl; [|exact H]; cbn; tauto|]. split; [intros H; apply D5, H|].
    intros x f Lx Hf. rewrite (D6 x f Hf). unfold total, asks. rewrite rsum_map. fold dof. apply rsum_ext. intros j Hj. apply in_seq in Hj. cbn [fst snd Nat.add]. rewrite Wn by lia. reflexivity.
  - injection Ef as <-. pose proof (pos_affine n {| jp_var := v; jp_index := seq 0 dof; jp_coeffs := cs; jp_bounds := bs |}) as A. cbn [jp_var jp_index jp_coeffs jp_bounds] in A.
    specialize (A Pl ltac:(lia)). rewrite Ecs in A. specialize (A ltac:(rewrite map_length; reflexivity) ltac:(rewrite seq_length; reflexivity)). specialize (A ltac:(apply Forall_forall; intros i Hi; apply in_seq in Hi; lia)).
    rewrite <- Ecs in A at 1. rewrite (list_nth_map bs free) in A at 2. fold dof in A. rewrite combine_one in A. fold dof.
    eexists. split; [exact A|]. unfold one_row. split; [destruct dof; [congruence|discriminate]|].
    assert (Fb : forall (P : bnd R -> Prop), Forall P bs -> forall j, (j < dof)%nat -> P (nth j bs free)) by (intros P F j Hj; rewrite Forall_forall in F; apply F, nth_In, Hj).
    split; [apply Forall_map, Forall_forall; intros j Hj; apply in_seq in Hj; apply pos_row_ok; [lia|apply Fb; [exact Pp|lia]|apply Hpos; lia]|].
    split; [intros lo Hlo F; apply Forall_map, Forall_forall; intros j Hj; apply in_seq in Hj; apply Hlow; [exact Hlo|exact F|lia]|].
    split. { intros H. apply Forall_map, Forall_forall. intros j Hj. apply in_seq in Hj. cbn [a_bnd]. destruct (Fb _ H j ltac:(lia)) as (H1 & H2). specialize (H2 eq_refl). destruct (type_of (nth j bs free)); cbn; auto; congruence. }
    split; [intros H; apply Forall_map, Forall_forall; intros j Hj; apply in_seq in Hj; cbn [a_bnd]; apply (Fb _ H j); lia|].
    intros x f Lx Hf. unfold total, asks. rewrite !rsum_map. fold dof. apply rsum_ext. intros j Hj. apply in_seq in Hj. cbn [fst snd a_w]. f_equal. unfold viol. rewrite pos_value. cbn [a_bnd]. apply viol_dist. apply Fb; [exact Pp|lia].
Qed.
Lemma request_described n q t : placed_in n q -> request_set q = Val t -> exists rs, described n q t rs.
Proof.
  destruct q; [apply diff_described|apply target_described|apply bounds_described].
Qed.

(** ** The problem *)
Definition hinged (l : list (request * role)) : list request := flat_map (fun rq => match snd rq with AsCost PHinge => [fst rq] | _ => [] end) l.
Definition absolute (l : list (request * role)) : list request := flat_map (fun rq => match snd rq with AsCost PAbsolute => [fst rq] | _ => [] end) l.
Definition holds (n : nat) (ty : itype) (r : role) (q : request) (t : term R) : Prop :=
  exists rs, described n q t rs /\ supported (q, r) /\ (ty = IMerit \/ Forall (fun r => role_type ty (type_of (a_bnd r))) rs).
Record src_ok (n : nat) (l : list (request * role)) (s : sources R) : Prop := {
  so_sq : Forall2 (holds n IObjective (AsCost PSquared)) (squares l) (s_sq s); so_hi : Forall2 (holds n IHinge (AsCost PHinge)) (hinged l) (s_hinge s);
  so_ab : Forall2 (holds n IAbsolute (AsCost PAbsolute)) (absolute l) (s_abs s); so_cn : Forall2 (holds n IMerit AsConstraint) (constraints l) (s_cnt s);
  so_dy : s_dsq s = [] /\ s_dhinge s = [] /\ s_dabs s = [] /\ s_dcnt s = [] }.

Lemma F2_snoc {A B} (P : A -> B -> Prop) l m a b : Forall2 P l m -> P a b -> Forall2 P (l ++ [a]) (m ++ [b]).
Proof. intros F H. apply Forall2_app; [exact F|]. constructor; [exact H|constructor]. Qed.
Lemma forallb_map_rows (g : bnd R -> bool) rs : forallb g (map a_bnd rs) = true -> Forall (fun r => g (a_bnd r) = true) rs.
Proof. intros H. apply Forall_forall. intros r Hr. rewrite forallb_forall in H. apply H, in_map, Hr. Qed.
Lemma add_request_ok n p p' l rq : src_ok n l (q_src p) -> reach p -> length (q_x p) = n -> placed_in n (fst rq) -> supported rq -> add_request p rq = Val p' ->
  src_ok n (l ++ [rq]) (q_src p') /\ reach p' /\ q_x p' = q_x p /\ q_bnds p' = q_bnds p /\ q_init p' = false.
Proof.
  intros [S1 S2 S3 S4 (S5 & S6 & S7 & S8)] Re Ln Pl Su E. destruct rq as [q r]. unfold add_request in E. cbn [fst snd] in *. destruct (request_set q) as [t| |] eqn:Et; try discriminate. cbn [rbind] in E.
  destruct (request_described n q t Pl Et) as (rs & D). pose proof D as ((Dy & Wf & _) & _). pose proof (affine_comp n t rs (q_x p) (proj1 D) Ln) as (_ & _ & _ & Eb & _).
  destruct r as [|[| |]].
  - injection E as <-. split; [|split; [apply reach_cnt; assumption|split; [reflexivity|split; reflexivity]]].
    constructor; unfold squares, hinged, absolute, constraints; rewrite ?flat_map_app; cbn [flat_map snd fst app add_constraint with_src q_src s_sq s_hinge s_abs s_cnt s_dsq s_dhinge s_dabs s_dcnt]; rewrite ?Dy, ?app_nil_r; try assumption.
    + apply F2_snoc; [exact S4|]. exists rs. auto.
    + auto.
  - pose proof E as E'. unfold add_cost in E'. rewrite Eb in E'. destruct (forallb is_eq (map a_bnd rs)) eqn:Ee; [|discriminate]. injection E' as Ep.
    split; [|split; [eapply reach_cost; eassumption|subst p'; split; [reflexivity|split; reflexivity]]]. subst p'. apply forallb_map_rows in Ee.
    constructor; unfold squares, hinged, absolute, constraints; rewrite ?flat_map_app; cbn [flat_map snd fst app with_src q_src s_sq s_hinge s_abs s_cnt s_dsq s_dhinge s_dabs s_dcnt]; rewrite ?Dy, ?app_nil_r; try assumption; [|auto].
    apply F2_snoc; [assumption|]. exists rs. split; [exact D|]. split; [exact Su|]. right. eapply Forall_impl; [|exact Ee]. cbn beta. intros a. unfold is_eq. cbn. destruct (type_of (a_bnd a)); congruence.
  - pose proof E as E'. unfold add_cost in E'. rewrite Eb in E'. destruct (forallb is_eq (map a_bnd rs)) eqn:Ee; [|discriminate]. injection E' as Ep.
    split; [|split; [eapply reach_cost; eassumption|subst p'; split; [reflexivity|split; reflexivity]]]. subst p'. apply forallb_map_rows in Ee.
    constructor; unfold squares, hinged, absolute, constraints; rewrite ?flat_map_app; cbn [flat_map snd fst app with_src q_src s_sq s_hinge s_abs s_cnt s_dsq s_dhinge s_dabs s_dcnt]; rewrite ?Dy, ?app_nil_r; try assumption; [|auto].
    apply F2_snoc; [assumption|]. exists rs. split; [exact D|]. split; [exact Su|]. right. eapply Forall_impl; [|exact Ee]. cbn beta. intros a. unfold is_eq. cbn. destruct (type_of (a_bnd a)); congruence.
  - pose proof E as E'. unfold add_cost in E'. rewrite Eb in E'. destruct (forallb is_ineq (map a_bnd rs)) eqn:Ee; [|discriminate]. injection E' as Ep.
    split; [|split; [eapply reach_cost; eassumption|subst p'; split; [reflexivity|split; reflexivity]]]. subst p'. apply forallb_map_rows in Ee.
    constructor; unfold squares, hinged, absolute, constraints; rewrite ?flat_map_app; cbn [flat_map snd fst app with_src q_src s_sq s_hinge s_abs s_cnt s_dsq s_dhinge s_dabs s_dcnt]; rewrite ?Dy, ?app_nil_r; try assumption; [|auto].
    apply F2_snoc; [assumption|]. exists rs. split; [exact D|]. split; [exact Su|]. right. eapply Forall_impl; [|exact Ee]. cbn beta. intros a. unfold is_ineq. cbn. destruct (type_of (a_bnd a)); auto; congruence.
Qed.
Lemma add_requests_ok n l : forall p p' l0, src_ok n l0 (q_src p) -> reach p -> length (q_x p) = n -> q_init p = false -> Forall (fun rq => placed_in n (fst rq) /\ supported rq) l -> add_requests p l = Val p' ->
  src_ok n (l0 ++ l) (q_src p') /\ reach p' /\ q_x p' = q_x p /\ q_bnds p' = q_bnds p /\ q_init p' = false.
Proof.
  induction l as [|rq l IH]; intros p p' l0 So Re Ln Hi F E; cbn [add_requests] in E.
  - injection E as <-. rewrite app_nil_r. auto.
  - destruct (add_request p rq) as [p1| |] eqn:E1; try discriminate. cbn [rbind] in E. inversion_clear F as [|? ? (P1 & P2) F'].
    destruct (add_request_ok n p p1 l0 rq So Re Ln P1 P2 E1) as (A1 & A2 & A3 & A4 & A5). destruct (IH p1 p' (l0 ++ [rq]) A1 A2 ltac:(congruence) A5 F' E) as (B1 & B2 & B3 & B4 & B5).
    rewrite <- app_assoc in B1. split; [exact B1|]. split; [exact B2|]. split; [congruence|]. split; [congruence|exact B5].
Qed.
Lemma joint_problem_ok x bs l p : joint_problem x bs l = Val p -> length bs = length x -> well_put (length x) l ->
  src_ok (length x) l (q_src p) /\ reach p /\ q_x p = x /\ q_bnds p = bs /\ q_init p = true.
Proof.
  unfold joint_problem. destruct (add_requests (qp_new x bs) l) as [p1| |] eqn:E; try discriminate. cbn [rbind]. intros [= <-] Lb F.
  destruct (add_requests_ok (length x) l (qp_new x bs) p1 []) as (A1 & A2 & A3 & A4 & A5); try assumption; try reflexivity; [|apply reach_new, Lb|].
  - constructor; try constructor; auto.
  - destruct (setup_keeps p1) as (K1 & K2 & K3 & K4 & _). rewrite K1, K2, K3. cbn [qp_new q_x q_bnds] in A3, A4. split; [exact A1|]. split; [apply reach_setup; assumption|]. auto.
Qed.

Lemma F2_usable n ty r qs ts x : Forall2 (holds n ty r) qs ts -> (ty = IMerit -> r = AsConstraint) -> length x = n -> Forall (usable ty n x) ts.
Proof.
  intros F Hr Lx. induction F as [|q t qs ts (rs & D & Su & Ty) F IH]; constructor; [|exact IH]. pose proof D as (A & _ & Ok & _ & D4 & _). apply affine_usable with (rs := rs); try assumption. destruct Ty as [->|Ty]; [|exact Ty]. apply D4. rewrite <- (Hr eq_refl). exact Su.
Qed.
Lemma F2_rows n ty r qs ts x : Forall2 (holds n ty r) qs ts -> length x = n -> (length ts <= rows_at x ts)%nat.
Proof.
  intros F Lx. induction F as [|q t qs ts (rs & D & _) F IH]; [apply le_n|]. pose proof D as (A & Ne & _). destruct (affine_comp n t rs x A Lx) as (_ & E & _).
  change (rows_at x (t :: ts)) with (cm_rows (tm_at t x) + rows_at x ts)%nat. rewrite E. cbn [length]. destruct rs; [congruence|]. cbn [length]. lia.
Qed.
Lemma F2_sum n ty r qs ts (g : term R -> R) (h : request -> R) : Forall2 (holds n ty r) qs ts -> (forall q t rs, described n q t rs -> supported (q, r) -> g t = h q) -> rsum g ts = rsum h qs.
Proof. intros F H. induction F as [|q t qs ts (rs & D & Su & _) F IH]; [reflexivity|]. rewrite !rsum_cons, IH, (H q t rs D Su). reflexivity. Qed.
Lemma F2_combine n ty r qs ts (g : term R -> R) (h : request -> R) : Forall2 (holds n ty r) qs ts -> (forall q t rs, described n q t rs -> supported (q, r) -> g t = h q) -> forall mu : list R,
  rsum (fun mt => fst mt * g (snd mt)) (combine mu ts) = rsum (fun mq => fst mq * h (snd mq)) (combine mu qs).
Proof.
  intros F H. induction F as [|q t qs ts (rs & D & Su & _) F IH]; intros [|m mu]; try reflexivity. cbn [combine]. rewrite !rsum_cons, IH. cbn [fst snd]. rewrite (H q t rs D Su). reflexivity.
Qed.
Lemma rsum_others (h : request -> R) l : rsum h (others l) = rsum h (hinged l) + rsum h (absolute l).
Proof.
  unfold others, hinged, absolute. induction l as [|[q [|[| |]]] l IH]; cbn [flat_map snd fst app]; rewrite ?rsum_nil, ?rsum_cons; [lra|exact IH|exact IH|rewrite IH; lra|rewrite IH; lra].
Qed.

(** ** Convexity *)
Lemma dist_nonneg b v : 0 <= dist b v.
Proof. apply Rmax_l. Qed.
Lemma dist_lub b v d : 0 <= d -> (forall l, b_lo b = Some l -> l - v <= d) -> (forall u, b_hi b = Some u -> v - u <= d) -> dist b v <= d.
Proof. intros H A B. unfold dist. apply Rmax_lub; [exact H|]. apply Rmax_lub; [destruct (b_lo b) as [l|]; [apply A; reflexivity|exact H]|destruct (b_hi b) as [u|]; [apply B; reflexivity|exact H]]. Qed.
Lemma dist_lo b v l : b_lo b = Some l -> l - v <= dist b v.
Proof. intros E. unfold dist. rewrite E. eapply Rle_trans; [|apply Rmax_r]. apply Rmax_l. Qed.
Lemma dist_hi b v u : b_hi b = Some u -> v - u <= dist b v.
Proof. intros E. unfold dist. rewrite E. eapply Rle_trans; [|apply Rmax_r]. apply Rmax_r. Qed.
Lemma dot_towards t (r : srow R) x z : length z = length x -> srow_dot r (RunSpec.towards t x z) = (1 - t) * srow_dot r x + t * srow_dot r z.
Proof.
  intros L. rewrite !srow_dot_R. induction r as [|c r IH]; [rewrite !rsum_nil; lra|]. rewrite !rsum_cons, IH. destruct (Nat.lt_ge_cases (fst c) (length x)) as [H|H].
  - rewrite RunProps.towards_nth by assumption. lra.
  - rewrite !nth_overflow by (rewrite ?RunProps.towards_len by exact L; lia). lra.
Qed.
Lemma viol_nonneg n x r : row_ok n r -> 0 <= viol x r.
Proof. intros (_ & P & _). unfold viol. rewrite viol_dist by exact P. apply dist_nonneg. Qed.
Lemma viol_towards n r x z t : row_ok n r -> length z = length x -> 0 <= t <= 1 -> viol (RunSpec.towards t x z) r <= (1 - t) * viol x r + t * viol z r.
Proof.
  intros (_ & P & _) L Ht. unfold viol. rewrite !viol_dist by exact P. unfold value. rewrite dot_towards by exact L. set (a := srow_dot (a_jac r) x). set (b := srow_dot (a_jac r) z). set (B := a_bnd r).
  pose proof (dist_nonneg B a). pose proof (dist_nonneg B b). apply dist_lub; [nra| |].
  - intros lo E. pose proof (dist_lo B a lo E). pose proof (dist_lo B b lo E). nra.
  - intros hi E. pose proof (dist_hi B a hi E). pose proof (dist_hi B b hi E). nra.
Qed.
Local Notation one_convex := RunSpec.convex_from.
Lemma rows_convex n rs x (f : R -> R -> R) : Forall (row_ok n) rs -> (forall w t a b d, 0 < w -> 0 <= t <= 1 -> 0 <= a -> 0 <= b -> 0 <= d -> d <= (1 - t) * a + t * b -> f w d <= (1 - t) * f w a + t * f w b) ->
  one_convex x (fun y => rsum (fun r => f (a_w r) (viol y r)) rs).
Proof.
  intros F Hf z t Lz Ht. induction F as [|r rs Ok F IH]; [rewrite !rsum_nil; lra|]. rewrite !rsum_cons.
  pose proof (Hf (a_w r) t (viol x r) (viol z r) (viol (RunSpec.towards t x z) r) (proj2 (proj2 Ok)) Ht (viol_nonneg n x r Ok) (viol_nonneg n z r Ok) (viol_nonneg n _ r Ok) (viol_towards n r x z t Ok Lz Ht)). cbn beta in IH. lra.
Qed.
Lemma convex_lin (w t a b d : R) : 0 < w -> 0 <= t <= 1 -> 0 <= a -> 0 <= b -> 0 <= d -> d <= (1 - t) * a + t * b -> w * d <= (1 - t) * (w * a) + t * (w * b).
Proof. intros. nra. Qed.
Lemma convex_sq (w t a b d : R) : 0 < w -> 0 <= t <= 1 -> 0 <= a -> 0 <= b -> 0 <= d -> d <= (1 - t) * a + t * b -> w * d ^ 2 <= (1 - t) * (w * a ^ 2) + t * (w * b ^ 2).
Proof.
  intros Hw Ht Ha Hb Hd H. assert (G : d ^ 2 <= ((1 - t) * a + t * b) ^ 2) by (apply pow_incr; lra).
  assert (K : ((1 - t) * a + t * b) ^ 2 = (1 - t) * a ^ 2 + t * b ^ 2 - t * (1 - t) * (a - b) ^ 2) by ring. assert (0 <= t * (1 - t) * (a - b) ^ 2) by (apply Rmult_le_pos; [nra|apply pow2_ge_0]).
  replace ((1 - t) * (w * a ^ 2) + t * (w * b ^ 2)) with (w * ((1 - t) * a ^ 2 + t * b ^ 2)) by ring. apply Rmult_le_compat_l; lra.
Qed.
Lemma described_convex n q t rs x f : described n q t rs -> length x = n -> (forall w, f w 0 = 0) ->
  (forall w t a b d, 0 < w -> 0 <= t <= 1 -> 0 <= a -> 0 <= b -> 0 <= d -> d <= (1 - t) * a + t * b -> f w d <= (1 - t) * f w a + t * f w b) -> one_convex x (fun y => total f y q).
Proof.
  intros (_ & _ & Ok & _ & _ & _ & T) Lx H0 Hf z s Lz Hs. rewrite <- !(T _ f) by (try exact H0; rewrite ?RunProps.towards_len by exact Lz; congruence). apply (rows_convex n rs x f Ok Hf z s Lz Hs).
Qed.
Lemma F2_convex n ty r qs ts x (h : list R -> request -> R) : Forall2 (holds n ty r) qs ts -> (forall q t rs, described n q t rs -> one_convex x (fun y => h y q)) -> one_convex x (fun y => rsum (h y) qs).
Proof.
  intros F H z s Lz Hs. induction F as [|q t qs ts (rs & D & _) F IH]; [rewrite !rsum_nil; lra|]. rewrite !rsum_cons. pose proof (H q t rs D z s Lz Hs) as K. cbn beta in K, IH. lra.
Qed.
Lemma F2_convex_mu n ty r qs ts x (h : list R -> request -> R) mu : Forall2 (holds n ty r) qs ts -> Forall (fun m => 0 <= m) mu -> (forall q t rs, described n q t rs -> one_convex x (fun y => h y q)) ->
  one_convex x (fun y => rsum (fun mq => fst mq * h y (snd mq)) (combine mu qs)).
Proof.
  intros F M H z s Lz Hs. revert mu M. induction F as [|q t qs ts (rs & D & _) F IH]; intros [|m mu] M; cbn [combine]; try (rewrite !rsum_nil; lra). inversion_clear M as [|? ? Hm M']. rewrite !rsum_cons. cbn [fst snd].
  pose proof (H q t rs D z s Lz Hs) as K. specialize (IH mu M'). cbn beta in K, IH. nra.
Qed.

Section Problem.
  Variables (x0 : list R) (bs : list (bnd R)) (l : list (request * role)) (p : qp R).
  Hypotheses (Ep : joint_problem x0 bs l = Val p) (Lb : length bs = length x0) (Hl : well_put (length x0) l) (Hn : x0 <> []).
  Local Notation n := (length x0).
  Lemma src_lists : objectives (q_src p) = s_sq (q_src p) /\ penalties (q_src p) = s_hinge (q_src p) ++ s_abs (q_src p) /\ hinges (q_src p) = s_hinge (q_src p) /\ absolutes (q_src p) = s_abs (q_src p) /\ merits (q_src p) = s_cnt (q_src p).
  Proof.
    destruct (joint_problem_ok x0 bs l p Ep Lb Hl) as ([_ _ _ _ (D1 & D2 & D3 & D4)] & _). unfold penalties, objectives, hinges, absolutes, merits. rewrite D1, D2, D3, D4, !app_nil_r. auto.
  Qed.
  Lemma joint_ok : problem_ok p.
  Proof.
    destruct (joint_problem_ok x0 bs l p Ep Lb Hl) as ([S1 S2 S3 S4 _] & Re & Ex & Eb & Hin). destruct src_lists as (L1 & L2 & L3 & L4 & L5).
    unfold problem_ok. rewrite Ex. split; [exact Re|]. split; [exact Hin|]. split; [destruct x0; [congruence|cbn; lia]|]. intros x Lx.
    unfold all_usable, nonneg_objectives. cbn [set_variables q_x q_src]. rewrite L1, L3, L4, L5, Lx. split; [|split; [|split]].
    - split; [apply (F2_usable n _ _ _ _ x S1); [discriminate|exact Lx]|]. split; [apply (F2_usable n _ _ _ _ x S2); [discriminate|exact Lx]|]. split; [apply (F2_usable n _ _ _ _ x S3); [discriminate|exact Lx]|apply (F2_usable n _ _ _ _ x S4); [reflexivity|exact Lx]].
    - clear -S1 Lx. induction S1 as [|q t qs ts (rs & D & _) F IH]; constructor; [|exact IH]. pose proof D as (A & _ & Ok & _). destruct (affine_comp n t rs x A Lx) as (_ & _ & _ & _ & ->). apply Forall_map. eapply Forall_impl; [|exact Ok]. intros r (_ & _ & H). lra.
    - pose proof (F2_rows n _ _ _ _ x S1 Lx) as K. destruct (s_sq (q_src p)); [left; reflexivity|right; cbn [length] in K; lia].
    - pose proof (F2_rows n _ _ _ _ x S4 Lx) as K. lia.
  Qed.
  Lemma joint_weights : Forall weighty l -> weights_ok p.
  Proof.
    intros W. destruct (joint_problem_ok x0 bs l p Ep Lb Hl) as ([_ S2 S3 S4 _] & Re & Ex & Eb & Hin). destruct src_lists as (L1 & L2 & L3 & L4 & L5).
    intros x Lx. rewrite Ex in Lx. rewrite L2, L5. rewrite Forall_forall in W.
    assert (G : forall ty r qs ts lo, Forall2 (holds n ty r) qs ts -> lo <= 1 -> (forall q, In q qs -> Forall (fun w => lo <= w) (coeffs_of q)) -> Forall (fun t => nonempty x t = true /\ Forall (fun c => lo <= r_w c) (term_rows x t)) ts).
    { intros ty r qs ts lo F Hlo H. induction F as [|q t qs ts (rs & D & _) F IH]; constructor; [|apply IH; intros q' Hq'; apply H; right; exact Hq'].
      pose proof D as (A & Ne & _ & Dl & _). split; [unfold nonempty; destruct (affine_comp n t rs x A Lx) as (_ & -> & _); destruct rs; [congruence|reflexivity]|].
      rewrite (affine_rows n t rs x A Lx). apply Forall_map. apply (Dl lo Hlo). apply H. left. reflexivity. }
    assert (M : / 10 ^ 7 <= 1) by lra. split.
    - apply Forall_app. split; (eapply Forall_impl; [|first [eapply (G _ _ _ _ (/ 10 ^ 7) S2 M)|eapply (G _ _ _ _ (/ 10 ^ 7) S3 M)]]).
      all: try (intros t (_ & H); eapply Forall_impl; [|exact H]; cbn beta; auto).
      + intros q Hq. apply in_flat_map in Hq as ([q' r] & Hi & Hq). cbn [fst snd] in Hq. destruct r as [|[| |]]; try contradiction. destruct Hq as [<-|[]]. apply (W _ Hi).
      + intros q Hq. apply in_flat_map in Hq as ([q' r] & Hi & Hq). cbn [fst snd] in Hq. destruct r as [|[| |]]; try contradiction. destruct Hq as [<-|[]]. apply (W _ Hi).
    - apply (G _ _ _ _ 1 S4); [lra|]. intros q Hq. apply in_flat_map in Hq as ([q' r] & Hi & Hq). cbn [fst snd] in Hq. destruct r as [|]; [|contradiction]. destruct Hq as [<-|[]]. apply (W _ Hi).
  Qed.
  Lemma joint_exact mu x : length x = n -> exact_merit p mu x = reported_merit l mu x.
  Proof.
    intros Lx. destruct (joint_problem_ok x0 bs l p Ep Lb Hl) as ([S1 S2 S3 S4 _] & _). destruct src_lists as (L1 & L2 & L3 & L4 & L5).
    unfold exact_merit, reported_merit. rewrite L1, L2, L5, rsum_app, rsum_others. 
    assert (V : forall q t rs, described n q t rs -> exact_viol x t = total (fun _ d => d) x q) by (intros q t rs (A & _ & _ & _ & _ & _ & T); rewrite (rows_exact n t rs x A Lx); apply (T x (fun _ d => d) Lx); reflexivity).
    f_equal; [f_equal; [|f_equal]|].
    - apply (F2_sum n _ _ _ _ _ _ S1). intros q t rs (A & _ & _ & _ & _ & _ & T) _. rewrite (rows_square n t rs x A Lx). apply (T x (fun w d => w * d ^ 2) Lx). intros; ring.
    - apply (F2_sum n _ _ _ _ _ _ S2). intros q t rs D _. apply (V q t rs D).
    - apply (F2_sum n _ _ _ _ _ _ S3). intros q t rs D _. apply (V q t rs D).
    - apply (F2_combine n _ _ _ _ _ _ S4). intros q t rs D _. apply (V q t rs D).
  Qed.
  Lemma joint_convex mu x y : length x = n -> length y = n -> convex_merit p mu x y = merit l mu y.
  Proof.
    intros Lx Ly. destruct (joint_problem_ok x0 bs l p Ep Lb Hl) as ([S1 S2 S3 S4 _] & _). destruct src_lists as (L1 & L2 & L3 & L4 & L5).
    unfold convex_merit, merit. rewrite L1, L2, L5, rsum_app, rsum_others.
    assert (V : forall q t rs, described n q t rs -> set_penalty x y t = total (fun w d => w * d) y q) by (intros q t rs (A & _ & Ok & _ & _ & _ & T); rewrite (rows_penalty n t rs x y A Ok Lx); apply (T y (fun w d => w * d) Ly); intros; ring).
    f_equal; [f_equal; [|f_equal]|].
    - apply (F2_sum n _ _ _ _ _ _ S1). intros q t rs (A & _ & _ & _ & _ & Sq & T) Su. rewrite (rows_gn n t rs x y A (Sq Su) Lx). apply (T y (fun w d => w * d ^ 2) Ly). intros; ring.
    - apply (F2_sum n _ _ _ _ _ _ S2). intros q t rs D _. apply (V q t rs D).
    - apply (F2_sum n _ _ _ _ _ _ S3). intros q t rs D _. apply (V q t rs D).
    - apply (F2_combine n _ _ _ _ _ _ S4). intros q t rs D _. apply (V q t rs D).
  Qed.
  Lemma joint_viols x : length x = n -> map (exact_viol x) (merits (q_src p)) = map (total (fun _ d => d) x) (constraints l) /\
    map (exact_square x) (objectives (q_src p)) = map (total (fun w d => w * d ^ 2) x) (squares l).
  Proof.
    intros Lx. destruct (joint_problem_ok x0 bs l p Ep Lb Hl) as ([S1 S2 S3 S4 _] & _). destruct src_lists as (L1 & L2 & L3 & L4 & L5). rewrite L1, L5. split.
    - clear -S4 Lx. induction S4 as [|q t qs ts (rs & (A & _ & _ & _ & _ & _ & T) & _) F IH]; [reflexivity|]. cbn [map]. rewrite IH. f_equal. rewrite (rows_exact n t rs x A Lx). apply (T x (fun _ d => d) Lx). reflexivity.
    - clear -S1 Lx. induction S1 as [|q t qs ts (rs & (A & _ & _ & _ & _ & _ & T) & _) F IH]; [reflexivity|]. cbn [map]. rewrite IH. f_equal. rewrite (rows_square n t rs x A Lx). apply (T x (fun w d => w * d ^ 2) Lx). intros; ring.
  Qed.
  Lemma merit_convex mu x : length x = n -> Forall (fun m => 0 <= m) mu -> RunSpec.convex_from x (merit l mu).
  Proof.
    intros Lx M z t Lz Ht. destruct (joint_problem_ok x0 bs l p Ep Lb Hl) as ([S1 S2 S3 S4 _] & _). unfold merit. rewrite !rsum_others.
    assert (G : forall q t rs, described n q t rs -> one_convex x (fun y => total (fun w d => w * d) y q)) by (intros q t' rs D; apply (described_convex n q t' rs x _ D Lx); [intros; ring|intros; apply convex_lin; assumption]).
    pose proof (F2_convex n _ _ _ _ x (total (fun w d => w * d ^ 2)) S1 ltac:(intros q t' rs D; apply (described_convex n q t' rs x _ D Lx); [intros; ring|intros; apply convex_sq; assumption]) z t Lz Ht) as K1.
    pose proof (F2_convex n _ _ _ _ x (total (fun w d => w * d)) S2 G z t Lz Ht) as K2. pose proof (F2_convex n _ _ _ _ x (total (fun w d => w * d)) S3 G z t Lz Ht) as K3.
    pose proof (F2_convex_mu n _ _ _ _ x (total (fun w d => w * d)) mu S4 M G z t Lz Ht) as K4. cbn beta in K1, K2, K3, K4. lra.
  Qed.
End Problem.
