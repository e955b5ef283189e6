(** * C45 and C46: the pipe protocol and the solver names *)
From Coq Require Import String ZArith Bool Arith List Lia.
From Verif Require Import PipeModel.
Import ListNotations.
Local Open Scope Z_scope.

(** ** images *)
Lemma le_length k v : length (le k v) = k.
Proof. revert v. induction k as [|k IH]; intros v; cbn; [reflexivity|]. rewrite IH. reflexivity. Qed.
Lemma unle_le k : forall v, 0 <= v < 256 ^ Z.of_nat k -> unle (le k v) = v.
Proof.
  induction k as [|k IH]; intros v Hv; cbn [le unle]; [cbn in Hv; lia|].
  rewrite Nat2Z.inj_succ, Z.pow_succ_r in Hv by lia. rewrite IH.
  - pose proof (Z.div_mod v 256). lia.
  - split; [apply Z.div_pos; lia|]. apply Z.div_lt_upper_bound; lia.
Qed.
Definition int_ok (v : Z) : Prop := - 2 ^ 31 <= v < 2 ^ 31.
Definition dbl_ok (v : Z) : Prop := 0 <= v < 2 ^ 64.
Lemma int_image v : int_ok v -> int_img (img_int v) = v.
Proof.
  intros H. unfold int_ok in H. unfold int_img, img_int.
  assert (M : 0 <= v mod 2 ^ 32 < 2 ^ 32) by (apply Z.mod_pos_bound; reflexivity).
  rewrite unle_le by exact M.
  destruct (Z.le_gt_cases 0 v) as [P|N].
  - rewrite Z.mod_small by lia. destruct (Z.ltb_spec v (2 ^ 31)); lia.
  - replace (v mod 2 ^ 32) with (v + 2 ^ 32).
    + destruct (Z.ltb_spec (v + 2 ^ 32) (2 ^ 31)); lia.
    + apply (Z.mod_unique_pos _ _ (-1)); lia.
Qed.

(** ** what one run of a program may do: either it handles the whole message, or an assertion fails
    because a call was cut short *)
Lemma bind_done {A C} (x : prog A) (f : A -> prog C) p c a p' c' : x p c = Done a p' c' -> bind x f p c = f a p' c'.
Proof. intros E. unfold bind. rewrite E. reflexivity. Qed.
Lemma bind_abort {A C} (x : prog A) (f : A -> prog C) p c : x p c = Abort -> bind x f p c = Abort.
Proof. intros E. unfold bind. rewrite E. reflexivity. Qed.
Section Runs.
  Variables (asserts : bool) (g : nat -> nat).
  (** without assertions every call must handle up to [B] bytes *)
  Variable B : nat.
  Definition admissible : Prop := asserts = true \/ forall i, (B <= g i)%nat.
  Definition reads {A} (x : prog A) (img : list Z) (a : A) : Prop :=
    forall rest c, (exists c', x (img ++ rest) c = Done a rest c') \/ (x (img ++ rest) c = Abort /\ asserts = true /\ exists i, (g i < B)%nat).
  Definition writes (x : prog unit) (img : list Z) : Prop :=
    forall p c, (exists c', x p c = Done tt (p ++ img) c') \/ (x p c = Abort /\ asserts = true /\ exists i, (g i < B)%nat).

  Lemma wr_writes img : admissible -> (length img <= B)%nat -> writes (wr asserts g img) img.
  Proof.
    intros H L p c. unfold wr. destruct (Nat.le_gt_cases (length img) (g c)) as [G|G].
    - left. rewrite Nat.min_r, Nat.eqb_refl, andb_false_r, firstn_all by exact G. eexists. reflexivity.
    - destruct H as [H|H]; [|specialize (H c); lia]. right. rewrite H. rewrite Nat.min_l by lia.
      destruct (Nat.eqb_spec (g c) (length img)); [lia|]. split; [reflexivity|]. split; [reflexivity|]. exists c. lia.
  Qed.
  Lemma rd_reads buf img : admissible -> length buf = length img -> (length img <= B)%nat -> reads (rd asserts g buf) img img.
  Proof.
    intros H E L rest c. unfold rd. rewrite E, app_length, (Nat.min_l (length img)) by lia.
    destruct (Nat.le_gt_cases (length img) (g c)) as [G|G].
    - left. rewrite Nat.min_r, Nat.eqb_refl, andb_false_r by exact G. rewrite firstn_app, Nat.sub_diag, firstn_all, firstn_O, app_nil_r.
      rewrite <- E, skipn_all, app_nil_r, E. rewrite skipn_app, Nat.sub_diag, skipn_all, skipn_O. eexists. reflexivity.
    - destruct H as [H|H]; [|specialize (H c); lia]. right. rewrite H, Nat.min_l by lia.
      destruct (Nat.eqb_spec (g c) (length img)); [lia|]. split; [reflexivity|]. split; [reflexivity|]. exists c. lia.
  Qed.
  Lemma reads_ret {A} (a : A) : reads (ret a) [] a.
  Proof. intros rest c. left. exists c. reflexivity. Qed.
  Lemma reads_bind {A C} (x : prog A) (f : A -> prog C) i1 i2 a b : reads x i1 a -> reads (f a) i2 b -> reads (bind x f) (i1 ++ i2) b.
  Proof.
    intros Hx Hf rest c. unfold bind. rewrite <- app_assoc. destruct (Hx (i2 ++ rest) c) as [(c' & ->)|(-> & K)]; [apply Hf|]. right. split; [reflexivity|exact K].
  Qed.
  Lemma writes_bind (x y : prog unit) i1 i2 : writes x i1 -> writes y i2 -> writes (bind x (fun _ => y)) (i1 ++ i2).
  Proof.
    intros Hx Hy p c. unfold bind. destruct (Hx p c) as [(c' & ->)|(-> & K)]; [|right; split; [reflexivity|exact K]]. rewrite app_assoc. apply Hy.
  Qed.
  Lemma reads_map {A C} (x : prog A) (f : A -> C) i a : reads x i a -> reads (bind x (fun y => ret (f y))) i (f a).
  Proof. intros H. rewrite <- (app_nil_r i). eapply reads_bind; [exact H|apply reads_ret]. Qed.

  (** vectors *)
  Definition vec_img (img : Z -> list Z) (x : list Z) : list Z := le 8 (Z.of_nat (length x)) ++ flat_map img x.
  Definition vec_ok (w : nat) (ok : Z -> Prop) (x : list Z) : Prop := Forall ok x /\ (w * length x <= B)%nat /\ Z.of_nat (length x) < 2 ^ 64.
  Lemma flat_length w (img : Z -> list Z) x : (forall v, length (img v) = w) -> length (flat_map img x) = (w * length x)%nat.
  Proof. intros H. induction x as [|v x IH]; cbn [flat_map length]; [lia|]. rewrite app_length, IH, H. lia. Qed.
  Lemma chunks_flat w (img : Z -> list Z) val (ok : Z -> Prop) x : (forall v, length (img v) = w) -> (forall v, ok v -> val (img v) = v) -> Forall ok x ->
    map val (chunks w (length x) (flat_map img x)) = x.
  Proof.
    intros L V F. induction F as [|v x Hv F IH]; [reflexivity|]. cbn [length chunks flat_map map].
    rewrite firstn_app, L, Nat.sub_diag, firstn_O, app_nil_r. rewrite firstn_all2 by (rewrite L; lia).
    rewrite skipn_app, L, Nat.sub_diag, skipn_O. rewrite skipn_all2 by (rewrite L; lia). cbn [app]. rewrite IH, V by exact Hv. reflexivity.
  Qed.
  Lemma put_vec_writes w img x : admissible -> (8 <= B)%nat -> (forall v, length (img v) = w) -> (w * length x <= B)%nat ->
    writes (put_vec asserts g w img x) (vec_img img x).
  Proof.
    intros H H8 L Hx. apply writes_bind; [apply wr_writes; [exact H|rewrite le_length; exact H8]|].
    apply wr_writes; [exact H|]. rewrite (flat_length w) by exact L. exact Hx.
  Qed.
  Lemma get_vec_reads w img val (ok : Z -> Prop) x : admissible -> (8 <= B)%nat -> (forall v, length (img v) = w) -> (forall v, ok v -> val (img v) = v) -> vec_ok w ok x ->
    reads (get_vec asserts g w val) (vec_img img x) x.
  Proof.
    intros H H8 L V (F & Hx & Hs). unfold get_vec, vec_img.
    apply (reads_bind _ _ _ _ (Z.of_nat (length x))).
    - unfold get_size. rewrite <- (unle_le 8 (Z.of_nat (length x))) at 2 by (change (256 ^ Z.of_nat 8) with (2 ^ 64); lia).
      apply reads_map, rd_reads; [exact H|rewrite !le_length; reflexivity|rewrite le_length; exact H8].
    - rewrite Nat2Z.id. rewrite <- (chunks_flat w img val ok x L V F) at 3.
      apply (reads_map _ (fun b => map val (chunks w (length x) b))). apply rd_reads; [exact H| |]; rewrite (flat_length w) by exact L; [apply repeat_length|exact Hx].
  Qed.

  Lemma get_char_reads v : admissible -> (8 <= B)%nat -> 0 <= v < 256 -> forall o, reads (get_char asserts g o) (le 1 v) v.
  Proof.
    intros H H8 Hv o. unfold get_char. rewrite <- (unle_le 1 v) at 2 by exact Hv. apply reads_map, rd_reads; [exact H|rewrite !le_length; reflexivity|rewrite le_length; lia].
  Qed.
  Lemma get_int_reads v : admissible -> (8 <= B)%nat -> int_ok v -> forall o, reads (get_int asserts g o) (img_int v) v.
  Proof.
    intros H H8 Hv o. unfold get_int. rewrite <- (int_image v Hv) at 2. apply reads_map, rd_reads; [exact H| |]; unfold img_int; rewrite !le_length; [reflexivity|lia].
  Qed.
  Lemma get_dbl_reads v : admissible -> (8 <= B)%nat -> dbl_ok v -> forall o, reads (get_dbl asserts g o) (le 8 v) v.
  Proof.
    intros H H8 Hv o. unfold get_dbl. rewrite <- (unle_le 8 v) at 2 by exact Hv. apply reads_map, rd_reads; [exact H|rewrite !le_length; reflexivity|rewrite le_length; lia].
  Qed.

  (** whole messages *)
  Definition ints_ok := vec_ok 4 int_ok.
  Definition dbls_ok := vec_ok 8 dbl_ok.
  Record input_ok (i : input) : Prop := {
    ok1 : int_ok (n_m i); ok2 : int_ok (n_n i); ok3 : int_ok (n_nz i); ok4 : int_ok (n_qn i); ok5 : int_ok (n_qnz i);
    ok6 : ints_ok (n_acolcnt i); ok7 : ints_ok (n_acolidx i); ok8 : dbls_ok (n_acolnzs i);
    ok9 : ints_ok (n_qcolcnt i); ok10 : ints_ok (n_qcolidx i); ok11 : dbls_ok (n_qcolnzs i);
    ok12 : dbls_ok (n_rhs i); ok13 : dbls_ok (n_obj i); ok14 : dbls_ok (n_lbound i); ok15 : dbls_ok (n_ubound i) }.
  Record output_ok (o : output) : Prop := {
    oo1 : dbls_ok (t_primal o); oo2 : dbls_ok (t_dual o); oo3 : ints_ok (t_status o); oo4 : int_ok (t_code o); oo5 : dbl_ok (t_opt o) }.

  Definition ints_img := vec_img img_int.
  Definition dbls_img := vec_img (le 8).
  Definition input_img (i : input) : list Z :=
    le 1 122 ++ img_int (n_m i) ++ img_int (n_n i) ++ img_int (n_nz i) ++ img_int (n_qn i) ++ img_int (n_qnz i) ++
    ints_img (n_acolcnt i) ++ ints_img (n_acolidx i) ++ dbls_img (n_acolnzs i) ++
    ints_img (n_qcolcnt i) ++ ints_img (n_qcolidx i) ++ dbls_img (n_qcolnzs i) ++
    dbls_img (n_rhs i) ++ dbls_img (n_obj i) ++ dbls_img (n_lbound i) ++ dbls_img (n_ubound i).
  Definition output_img (o : output) : list Z :=
    le 1 111 ++ dbls_img (t_primal o) ++ dbls_img (t_dual o) ++ ints_img (t_status o) ++ img_int (t_code o) ++ le 8 (t_opt o).

  Lemma put_ints_writes x : admissible -> (8 <= B)%nat -> ints_ok x -> writes (put_ints asserts g x) (ints_img x).
  Proof. intros H H8 (_ & L & _). apply put_vec_writes; auto; intros v; apply le_length. Qed.
  Lemma put_dbls_writes x : admissible -> (8 <= B)%nat -> dbls_ok x -> writes (put_dbls asserts g x) (dbls_img x).
  Proof. intros H H8 (_ & L & _). apply put_vec_writes; auto; intros v; apply le_length. Qed.
  Lemma get_ints_reads x : admissible -> (8 <= B)%nat -> ints_ok x -> reads (get_ints asserts g) (ints_img x) x.
  Proof. intros H H8 K. apply (get_vec_reads 4 img_int int_img int_ok); auto; intros v; first [apply le_length|apply int_image]. Qed.
  Lemma get_dbls_reads x : admissible -> (8 <= B)%nat -> dbls_ok x -> reads (get_dbls asserts g) (dbls_img x) x.
  Proof. intros H H8 K. apply (get_vec_reads 8 (le 8) unle dbl_ok); auto; intros v; first [apply le_length|apply (unle_le 8)]. Qed.

  Lemma put_input_writes i : admissible -> (8 <= B)%nat -> input_ok i -> writes (put_input asserts g i) (input_img i).
  Proof.
    intros H H8 K. unfold put_input, input_img, put_char, put_int.
    repeat (match goal with |- writes (bind _ _) _ => apply writes_bind end);
      match goal with
      | |- writes (wr _ _ _) _ => apply wr_writes; [exact H|unfold img_int; rewrite le_length; lia]
      | |- writes (put_ints _ _ _) _ => apply put_ints_writes; [exact H|exact H8|apply K]
      | |- writes (put_dbls _ _ _) _ => apply put_dbls_writes; [exact H|exact H8|apply K]
      end.
  Qed.
  Lemma put_output_writes o : admissible -> (8 <= B)%nat -> output_ok o -> writes (put_output asserts g o) (output_img o).
  Proof.
    intros H H8 K. unfold put_output, output_img, put_char, put_int, put_dbl.
    repeat (match goal with |- writes (bind _ _) _ => apply writes_bind end);
      match goal with
      | |- writes (wr _ _ _) _ => apply wr_writes; [exact H|unfold img_int; rewrite le_length; lia]
      | |- writes (put_ints _ _ _) _ => apply put_ints_writes; [exact H|exact H8|apply K]
      | |- writes (put_dbls _ _ _) _ => apply put_dbls_writes; [exact H|exact H8|apply K]
      end.
  Qed.
  Lemma get_input_reads i : admissible -> (8 <= B)%nat -> input_ok i -> reads (get_input asserts g) (input_img i) i.
  Proof.
    intros H H8 []. unfold get_input, input_img.
    eapply reads_bind; [apply get_char_reads; auto; lia|]. cbn [Z.eqb exit_char Pos.eqb].
    do 5 (eapply reads_bind; [apply get_int_reads; eassumption|]).
    do 2 (do 2 (eapply reads_bind; [apply get_ints_reads; eassumption|]); eapply reads_bind; [apply get_dbls_reads; eassumption|]).
    do 3 (eapply reads_bind; [apply get_dbls_reads; eassumption|]).
    rewrite <- (app_nil_r (dbls_img (n_ubound i))). eapply reads_bind; [apply get_dbls_reads; eassumption|].
    destruct i. apply reads_ret.
  Qed.
  Lemma get_output_reads o : admissible -> (8 <= B)%nat -> output_ok o -> reads (get_output asserts g) (output_img o) o.
  Proof.
    intros H H8 []. unfold get_output, output_img.
    eapply reads_bind; [apply get_char_reads; auto; lia|]. cbn [Z.eqb exit_char Pos.eqb].
    do 2 (eapply reads_bind; [apply get_dbls_reads; eassumption|]).
    eapply reads_bind; [apply get_ints_reads; eassumption|]. eapply reads_bind; [apply get_int_reads; eassumption|].
    rewrite <- (app_nil_r (le 8 (t_opt o))). eapply reads_bind; [apply get_dbl_reads; eassumption|].
    destruct o. apply reads_ret.
  Qed.
End Runs.

(** ** C45 *)
(** [max_bytes] bounds the size of every single value and vector of a message.  With assertions compiled
    in, whatever the operating system does: what was sent is what is received, or an assertion fails, and
    the latter only if a call was cut short. *)
Theorem C45_problem :
  forall (gw gr : nat -> nat) max_bytes i, (8 <= max_bytes)%nat -> input_ok max_bytes i ->
  (forall asserts pipe cw cr,
     asserts = true \/ ((forall k, (max_bytes <= gw k)%nat) /\ (forall k, (max_bytes <= gr k)%nat)) ->
     match put_input asserts gw i pipe cw with
     | Done _ sent _ =>
         exists msg, sent = pipe ++ msg /\ forall later,
           (exists c, get_input asserts gr (msg ++ later) cr = Done i later c) \/
           (get_input asserts gr (msg ++ later) cr = Abort /\ asserts = true /\ exists k, (gr k < max_bytes)%nat)
     | Abort => asserts = true /\ exists k, (gw k < max_bytes)%nat
     | Exited => False
     end).
Proof.
  intros gw gr B i H8 K asserts pipe cw cr H.
  assert (Aw : admissible asserts gw B) by (destruct H as [H|[H _]]; [left|right]; exact H).
  assert (Ar : admissible asserts gr B) by (destruct H as [H|[_ H]]; [left|right]; exact H).
  destruct (put_input_writes asserts gw B i Aw H8 K pipe cw) as [(c' & ->)|(-> & K1)]; [|exact K1].
  exists (input_img i). split; [reflexivity|]. intros later. apply (get_input_reads asserts gr B i Ar H8 K).
Qed.
Print Assumptions C45_problem.

Theorem C45_solution :
  forall (gw gr : nat -> nat) max_bytes o, (8 <= max_bytes)%nat -> output_ok max_bytes o ->
  (forall asserts pipe cw cr,
     asserts = true \/ ((forall k, (max_bytes <= gw k)%nat) /\ (forall k, (max_bytes <= gr k)%nat)) ->
     match put_output asserts gw o pipe cw with
     | Done _ sent _ =>
         exists msg, sent = pipe ++ msg /\ forall later,
           (exists c, get_output asserts gr (msg ++ later) cr = Done o later c) \/
           (get_output asserts gr (msg ++ later) cr = Abort /\ asserts = true /\ exists k, (gr k < max_bytes)%nat)
     | Abort => asserts = true /\ exists k, (gw k < max_bytes)%nat
     | Exited => False
     end).
Proof.
  intros gw gr B o H8 K asserts pipe cw cr H.
  assert (Aw : admissible asserts gw B) by (destruct H as [H|[H _]]; [left|right]; exact H).
  assert (Ar : admissible asserts gr B) by (destruct H as [H|[_ H]]; [left|right]; exact H).
  destruct (put_output_writes asserts gw B o Aw H8 K pipe cw) as [(c' & ->)|(-> & K1)]; [|exact K1].
  exists (output_img o). split; [reflexivity|]. intros later. apply (get_output_reads asserts gr B o Ar H8 K).
Qed.
Print Assumptions C45_solution.

(** A whole session: the caller gets exactly the problems sent, in order, then exits; if an assertion
    stops it, what it got is a prefix. *)
Theorem C45_session :
  forall (gw gr : nat -> nat) max_bytes l, (8 <= max_bytes)%nat -> Forall (input_ok max_bytes) l ->
  forall asserts cw cr fuel sent c,
  asserts = true \/ ((forall k, (max_bytes <= gw k)%nat) /\ (forall k, (max_bytes <= gr k)%nat)) ->
  put_inputs asserts gw l [] cw = Done tt sent c -> (length l < fuel)%nat ->
  serve asserts gr fuel sent cr = (l, Some true) \/
  (asserts = true /\ exists k, serve asserts gr fuel sent cr = (firstn k l, Some false)).
Proof.
  intros gw gr B l H8 F asserts cw cr fuel sent c H E L.
  assert (Aw : admissible asserts gw B) by (destruct H as [H|[H _]]; [left|right]; exact H).
  assert (Ar : admissible asserts gr B) by (destruct H as [H|[_ H]]; [left|right]; exact H).
  assert (W : writes asserts gw B (put_inputs asserts gw l) (flat_map input_img l ++ le 1 exit_char)).
  { clear E L. induction F as [|i l Hi F IH]; cbn [put_inputs flat_map app].
    - apply wr_writes; [exact Aw|rewrite le_length; lia].
    - rewrite <- app_assoc. apply writes_bind; [apply put_input_writes; assumption|exact IH]. }
  destruct (W [] cw) as [(c' & W1)|(W1 & _)]; [|congruence]. assert (Es : sent = flat_map input_img l ++ le 1 exit_char) by (rewrite W1, app_nil_l in E; set (img := flat_map input_img l ++ le 1 exit_char) in *; injection E as E _; symmetry; exact E). subst sent. clear E W W1.
  revert cr fuel L. induction F as [|i l Hi F IH]; intros cr fuel L; destruct fuel as [|fuel]; cbn [length] in L; try lia; cbn [flat_map serve].
  - rewrite app_nil_l.
    destruct (get_char_reads asserts gr B exit_char Ar H8 ltac:(unfold exit_char; lia) 0 [] cr) as [(c1 & E1)|(E1 & E2 & _)]; rewrite app_nil_r in E1.
    + left. unfold get_input. erewrite bind_done by exact E1. reflexivity.
    + right. split; [exact E2|]. exists 0%nat. unfold get_input. rewrite bind_abort by exact E1. reflexivity.
  - rewrite <- app_assoc. destruct (get_input_reads asserts gr B i Ar H8 Hi (flat_map input_img l ++ le 1 exit_char) cr) as [(c1 & ->)|(-> & E2 & _)].
    + destruct (IH c1 fuel ltac:(lia)) as [->|(E2 & k & ->)]; [left; reflexivity|]. right. split; [exact E2|]. exists (S k). reflexivity.
    + right. split; [exact E2|]. exists 0%nat. reflexivity.
Qed.
Print Assumptions C45_session.

(** a problem with two variables and one constraint, sent and read; the calls handle any number of bytes
    in one schedule and at most seven in the other *)
Definition ex_input : input :=
  {| n_m := 1; n_n := 2; n_nz := 2; n_qn := 0; n_qnz := 0; n_acolcnt := [1; 1]; n_acolidx := [1; 1]; n_acolnzs := [4607182418800017408; 0];
     n_qcolcnt := [0; 0]; n_qcolidx := []; n_qcolnzs := []; n_rhs := [0]; n_obj := [0; 9223372036854775808]; n_lbound := [0; 0; 0]; n_ubound := [0; 0; 0] |}.
Example C45_hyps : input_ok 100 ex_input.
Proof.
  assert (I : forall x : Z, 0 <= x < 10 -> int_ok x) by (intros x Hx; unfold int_ok; lia).
  assert (D : forall x : Z, Z.leb 0 x && Z.ltb x (2 ^ 64) = true -> dbl_ok x).
  { intros x Hx. apply andb_prop in Hx as [H1 H2]. apply Z.leb_le in H1. apply Z.ltb_lt in H2. split; assumption. }
  assert (V : forall w (ok : Z -> Prop) x, Forall ok x -> (w * length x <=? 100)%nat = true -> Z.of_nat (length x) < 2 ^ 64 -> vec_ok 100 w ok x)
    by (intros w ok x A1 A2 A3; repeat split; [exact A1|apply Nat.leb_le, A2|exact A3]).
  constructor; cbn [ex_input n_m n_n n_nz n_qn n_qnz n_acolcnt n_acolidx n_acolnzs n_qcolcnt n_qcolidx n_qcolnzs n_rhs n_obj n_lbound n_ubound]; try (apply I; lia);
    (apply V; [|reflexivity|reflexivity]); repeat (apply Forall_cons; [first [apply I; lia|apply D; reflexivity]|]); apply Forall_nil.
Qed.
Example C45_ex :
  (match put_inputs true (fun _ => 100%nat) [ex_input; ex_input] [] 0%nat with
   | Done _ p _ => serve true (fun _ => 100%nat) 3%nat p 0%nat | _ => ([], None) end) = ([ex_input; ex_input], Some true) /\
  put_input true (fun _ => 7%nat) ex_input [] 0%nat = Abort.
Proof. split; vm_compute; reflexivity. Qed.

(** Without assertions a read that returns fewer bytes than asked for goes unnoticed: the caller works on
    another problem, and everything after it is read out of step. *)
Theorem C45_short_read_refuted :
  exists (gw gr : nat -> nat) i i' sent c p c', input_ok 100 i /\ (forall k, (100 <= gw k)%nat) /\ (forall k, (8 <= gr k)%nat) /\
    put_input false gw i [] 0%nat = Done tt sent c /\ get_input false gr sent 0%nat = Done i' p c' /\ i' <> i /\ n_obj i' <> n_obj i /\ p <> [].
Proof.
  exists (fun _ => 100%nat), (fun k => if Nat.eqb k 11 then 8%nat else 100%nat), ex_input. do 5 eexists. split; [apply C45_hyps|].
  split; [intros; lia|]. split; [intros k; destruct (Nat.eqb k 11); lia|].
  split; [vm_compute; reflexivity|]. split; [vm_compute; reflexivity|].
  split; [intros E; apply (f_equal n_obj) in E; vm_compute in E; discriminate E|]. split; [vm_compute|]; discriminate.
Qed.
Print Assumptions C45_short_read_refuted.

(** ** C46 *)
(** Printing a value and reading the name back is the identity, for exactly the five values of the
    enumeration; and every accepted name is printed back. *)
Theorem C46_round_trip :
  (forall v s, show v = Text s <-> (v < 5)%nat /\ of_name s = Some v) /\
  (forall s, of_name s = None <-> ~ In s (map kind_name [GUROBI; OSQP; QPOASES; BPMPD; AUTO_SOLVER])).
Proof.
  assert (F : forall s, of_name s = if String.eqb s "GUROBI" then Some 0%nat else if String.eqb s "BPMPD" then Some 1%nat else
    if String.eqb s "OSQP" then Some 2%nat else if String.eqb s "QPOASES" then Some 3%nat else if String.eqb s "AUTO_SOLVER" then Some 4%nat else None) by reflexivity.
  split.
  - intros v s. rewrite F. split.
    + intros H. do 6 (destruct v as [|v]; [vm_compute in H; first [discriminate H|injection H as <-; split; [lia|reflexivity]]|]). discriminate H.
    + intros [Hv H]. destruct (String.eqb_spec s "GUROBI") as [->|_]; [injection H as <-; reflexivity|].
      destruct (String.eqb_spec s "BPMPD") as [->|_]; [injection H as <-; reflexivity|].
      destruct (String.eqb_spec s "OSQP") as [->|_]; [injection H as <-; reflexivity|].
      destruct (String.eqb_spec s "QPOASES") as [->|_]; [injection H as <-; reflexivity|].
      destruct (String.eqb_spec s "AUTO_SOLVER") as [->|_]; [injection H as <-; reflexivity|]. discriminate H.
  - intros s. rewrite F. cbn [map kind_name In].
    destruct (String.eqb_spec s "GUROBI") as [->|N1]; [split; [discriminate|tauto]|].
    destruct (String.eqb_spec s "BPMPD") as [->|N2]; [split; [discriminate|tauto]|].
    destruct (String.eqb_spec s "OSQP") as [->|N3]; [split; [discriminate|tauto]|].
    destruct (String.eqb_spec s "QPOASES") as [->|N4]; [split; [discriminate|tauto]|].
    destruct (String.eqb_spec s "AUTO_SOLVER") as [->|N5]; [split; [discriminate|tauto]|].
    split; [|reflexivity]. intros _ [E|[E|[E|[E|[E|[]]]]]]; congruence.
Qed.
Print Assumptions C46_round_trip.

(** The name and the enumerator agree for GUROBI and AUTO_SOLVER and for no other. *)
Theorem C46_names_partial :
  forall k, of_name (kind_name k) = Some (kind_value k) <-> k = GUROBI \/ k = AUTO_SOLVER.
Proof. intros []; (split; [intros H|intros [H|H]]); try discriminate H; auto. Qed.
Print Assumptions C46_names_partial.

(** TRAJOPT_CONVEX_SOLVER=OSQP creates a qpOASES model, QPOASES a BPMPD model and BPMPD an OSQP model
    when all are built; with OSQP alone the request for OSQP is rejected. *)
Theorem C46_env_refuted :
  exists k, create_model (fun _ => true) (Some (kind_name k)) (kind_value AUTO_SOLVER) <> Created (kind_value k) /\
    create_model (fun v => Nat.eqb v (kind_value k)) (Some (kind_name k)) (kind_value AUTO_SOLVER) = CreateThrows /\
    create_model (fun v => Nat.eqb v (kind_value k)) None (kind_value AUTO_SOLVER) = Created (kind_value k).
Proof. exists OSQP. repeat split. discriminate. Qed.
Print Assumptions C46_env_refuted.
Example C46_ex :
  map (fun k => create_model (fun _ => true) (Some (kind_name k)) 4%nat) [OSQP; QPOASES; BPMPD] = map (fun k => Created (kind_value k)) [QPOASES; BPMPD; OSQP] /\
  show 1%nat = Text "BPMPD" /\ show 5%nat = OutOfTable /\ show 6%nat = Throw.
Proof. repeat split. Qed.

(** Without the environment variable the solver created is the requested one, or for AUTO_SOLVER the first
    of those built in; something that is not built in is never created. *)
Theorem C46_create :
  forall have env k,
  (k <> AUTO_SOLVER -> create_model have env (kind_value k) = if have (kind_value k) then Created (kind_value k) else CreateThrows) /\
  (forall v, create_model have env (kind_value k) = Created v -> have v = true /\ (v < 4)%nat) /\
  (forall v, create_model have None (kind_value AUTO_SOLVER) = Created v <->
     (have v = true /\ (v < 4)%nat /\ forall w, (w < v)%nat -> have w = false)) /\
  (create_model have None (kind_value AUTO_SOLVER) = EmptyAccess <-> forall v, (v < 4)%nat -> have v = false).
Proof.
  intros have env k.
  assert (Mk : forall u v, (if ((u <? 4)%nat && have u)%bool then Created u else CreateThrows) = Created v -> have v = true /\ (v < 4)%nat).
  { intros u v H. destruct (Nat.ltb_spec u 4); cbn [andb] in H; [|discriminate]. destruct (have u) eqn:E; [|discriminate]. injection H as <-. auto. }
  split; [intros N; destruct k; try congruence; reflexivity|].
  assert (Av : forall v, match available have with v :: _ => if ((v <? 4)%nat && have v)%bool then Created v else CreateThrows | [] => EmptyAccess end = Created v -> have v = true /\ (v < 4)%nat).
  { intros v. destruct (available have); [discriminate|]. apply Mk. }
  split; [|split].
  - intros v. unfold create_model. cbv zeta. destruct (kind_value k =? kind_value AUTO_SOLVER)%nat; [|apply Mk].
    destruct env as [e|]; [|apply Av]. destruct (String.eqb e "AUTO_SOLVER"); [apply Av|]. destruct (of_name e); [apply Mk|discriminate].
  - intros v. unfold create_model, available. cbn [Nat.eqb kind_value seq filter].
    destruct (have 0%nat) eqn:E0; [cbn; rewrite E0; split; [intros H; injection H as <-; split; [exact E0|split; [lia|intros; lia]]|intros (H1 & H2 & H3); destruct v; [reflexivity|rewrite H3 in E0 by lia; discriminate]]|].
    destruct (have 1%nat) eqn:E1; [cbn; rewrite E1; split; [intros H; injection H as <-; split; [exact E1|split; [lia|intros [|w] Hw; [exact E0|lia]]]|intros (H1 & H2 & H3); destruct v as [|[|v]]; [congruence|reflexivity|rewrite H3 in E1 by lia; discriminate]]|].
    destruct (have 2%nat) eqn:E2; [cbn; rewrite E2; split; [intros H; injection H as <-; split; [exact E2|split; [lia|intros [|[|w]] Hw; [exact E0|exact E1|lia]]]|intros (H1 & H2 & H3); destruct v as [|[|[|v]]]; [congruence|congruence|reflexivity|rewrite H3 in E2 by lia; discriminate]]|].
    destruct (have 3%nat) eqn:E3; [cbn; rewrite E3; split; [intros H; injection H as <-; split; [exact E3|split; [lia|intros [|[|[|w]]] Hw; [exact E0|exact E1|exact E2|lia]]]|intros (H1 & H2 & H3); destruct v as [|[|[|[|v]]]]; [congruence|congruence|congruence|reflexivity|lia]]|].
    split; [discriminate|]. intros (H1 & H2 & H3). destruct v as [|[|[|[|v]]]]; try congruence; lia.
  - unfold create_model, available. cbn [Nat.eqb kind_value seq filter].
    destruct (have 0%nat) eqn:E0; [cbn; rewrite E0; split; [discriminate|intros H; rewrite H in E0 by lia; discriminate]|].
    destruct (have 1%nat) eqn:E1; [cbn; rewrite E1; split; [discriminate|intros H; rewrite H in E1 by lia; discriminate]|].
    destruct (have 2%nat) eqn:E2; [cbn; rewrite E2; split; [discriminate|intros H; rewrite H in E2 by lia; discriminate]|].
    destruct (have 3%nat) eqn:E3; [cbn; rewrite E3; split; [discriminate|intros H; rewrite H in E3 by lia; discriminate]|].
    split; [|reflexivity]. intros _ v Hv. destruct v as [|[|[|[|v]]]]; try assumption; lia.
Qed.
Print Assumptions C46_create.
