(** * Lemmas for C123 and C124 *)
From Coq Require Import ZArith Ascii String List Bool Arith Lia.
From Verif Require Import Num Common LogModel LogSpec.
Import ListNotations.

Section Proofs.
  Context {T : Type} {NT : Num T}.
  Notation file := (list (sym T)).
  Definition clean (sep : ascii) (f : file) : Prop := forall s, In s f -> is_ch sep s = false.

  Lemma split_some : forall sep s, exists f fs, split (T := T) sep s = f :: fs.
  Proof. intros sep [|c s]; cbn [split]; [eauto|]. destruct (is_ch sep c); [eauto|]. destruct (split sep s); eauto. Qed.
  Lemma split_app : forall sep a b, clean sep a -> split sep (a ++ Ch sep :: b) = a :: split sep b.
  Proof.
    intros sep a b. induction a as [|c a IH]; intros C.
    - cbn [app split is_ch]. rewrite Ascii.eqb_refl. reflexivity.
    - cbn [app split]. rewrite (C c) by (left; reflexivity). rewrite IH by (intros s H; apply C; right; exact H). reflexivity.
  Qed.
  Lemma split_one : forall sep a, clean sep a -> split sep a = [a].
  Proof.
    intros sep a. induction a as [|c a IH]; intros C; [reflexivity|].
    cbn [split]. rewrite (C c) by (left; reflexivity). rewrite IH by (intros s H; apply C; right; exact H). reflexivity.
  Qed.
  Lemma fields_items : forall l a, clean "," a -> Forall (clean ",") l -> fields (a ++ items l) = a :: l.
  Proof.
    unfold fields. induction l as [|f l IH]; intros a A L.
    - cbn [items flat_map]. rewrite app_nil_r. apply split_one, A.
    - change (items (f :: l)) with (Ch ","%char :: (f ++ items l)). rewrite split_app by assumption. inversion L; subst. rewrite IH by assumption. reflexivity.
  Qed.
  Lemma lines_cons : forall a b, clean "010" a -> lines (a ++ newline ++ b) = a :: lines b.
  Proof.
    intros a b C. unfold lines, newline. cbn [app]. rewrite split_app by assumption. destruct (split_some "010" b) as (f & fs & E). rewrite E. reflexivity.
  Qed.
  Lemma lines_one : forall a, clean "010" a -> lines (a ++ newline) = [a].
  Proof. intros a C. rewrite <- (app_nil_r newline), lines_cons by assumption. reflexivity. Qed.

  (** what contains no separator *)
  Lemma clean_app : forall sep a b, clean sep a -> clean sep b -> clean sep (a ++ b).
  Proof. intros sep a b A B s H. apply in_app_or in H as [H|H]; auto. Qed.
  Lemma clean_num : forall sep x, clean sep (num x).
  Proof. intros sep x s [<-|[]]. reflexivity. Qed.
  Lemma clean_text : forall s, plain s = true -> clean "," (text s) /\ clean "010" (text s).
  Proof.
    induction s as [|c s IH]; intros P; cbn [plain] in P; [split; intros x []|].
    apply andb_prop in P as [P1 P3]. apply andb_prop in P1 as [P1 P2]. apply negb_true_iff in P1, P2. destruct (IH P3) as [A B].
    split; intros x [<-|H]; auto.
  Qed.
  Lemma clean_items : forall l, Forall (clean "010") l -> clean "010" (items l).
  Proof. induction l as [|f l IH]; intros L s H; [destruct H|]. inversion L; subst. destruct H as [<-|H]; [reflexivity|]. apply in_app_or in H as [H|H]; auto. apply IH; auto. Qed.
  Lemma clean_nums : forall sep l, Forall (clean sep) (map num l).
  Proof. intros sep l. apply Forall_map, Forall_forall. intros x _. apply clean_num. Qed.
  Lemma clean_texts : forall l, forallb plain l = true -> Forall (clean ",") (map text l) /\ Forall (clean "010") (map text l).
  Proof. intros l H. rewrite forallb_forall in H. split; apply Forall_map, Forall_forall; intros s I; apply clean_text, H, I. Qed.

  (** a line [a,f,...,f] *)
  Lemma table_cons : forall a l b, clean "," a -> clean "010" a -> Forall (clean ",") l -> Forall (clean "010") l ->
    table (a ++ items l ++ newline ++ b) = (a :: l) :: table b.
  Proof.
    intros a l b A1 A2 L1 L2. unfold table. rewrite app_assoc, lines_cons by (apply clean_app; [assumption|apply clean_items; assumption]).
    cbn [map]. rewrite fields_items by assumption. reflexivity.
  Qed.
  Lemma table_last : forall a l, clean "," a -> clean "010" a -> Forall (clean ",") l -> Forall (clean "010") l ->
    table (a ++ items l ++ newline) = [a :: l].
  Proof. intros a l A1 A2 L1 L2. rewrite <- (app_nil_r newline). rewrite table_cons by assumption. reflexivity. Qed.

  (** four columns for each *)
  Lemma items_flat : forall {A} (f : A -> list file) l, flat_map (fun x => items (f x)) l = items (flat_map f l).
  Proof. intros A f l. induction l as [|x l IH]; [reflexivity|]. cbn [flat_map]. rewrite IH. unfold items. rewrite flat_map_app. reflexivity. Qed.
  Lemma Forall_flat : forall {A} (P : file -> Prop) (f : A -> list file) l, (forall x, In x l -> Forall P (f x)) -> Forall P (flat_map f l).
  Proof. intros A P f l H. apply Forall_flat_map, Forall_forall. exact H. Qed.
  Lemma columns : forall {A B} (f : A -> list B) (d : B) l, (forall x, In x l -> length (f x) = 4) ->
    length (flat_map f l) = 4 * length l /\
    forall i x j, nth_error l i = Some x -> j < 4 -> nth (4 * i + j) (flat_map f l) d = nth j (f x) d.
  Proof.
    intros A B f d. induction l as [|y l IH]; intros H4.
    - split; [reflexivity|]. intros [|i] x j H; discriminate.
    - assert (Y : length (f y) = 4) by (apply H4; left; reflexivity). destruct IH as [L N]; [intros x I; apply H4; right; exact I|].
      cbn [flat_map length]. rewrite app_length, L, Y. split; [lia|]. intros [|i] x j E J.
      + injection E as ->. rewrite app_nth1 by lia. f_equal.
      + cbn [nth_error] in E. rewrite app_nth2 by lia. rewrite Y. replace (4 * S i + j - 4) with (4 * i + j) by lia. apply N; assumption.
  Qed.

  Lemma write_all_ok : forall f (g : nat -> list file) l, (forall i, In i l -> f i = Ok (items (g i))) -> write_all (T := T) f l = Ok (items (flat_map g l)).
  Proof.
    intros f g. induction l as [|i l IH]; intros H; [reflexivity|]. cbn [write_all flat_map]. rewrite (H i) by (left; reflexivity). cbn [obind].
    rewrite IH by (intros j J; apply H; right; exact J). cbn [obind]. unfold items. rewrite flat_map_app. reflexivity.
  Qed.
  Lemma at_in : forall (l : list T) i, i < length l -> at_ l i = Ok (nth i l nzero).
  Proof. intros l i H. unfold at_. rewrite (nth_error_nth' l nzero H). reflexivity. Qed.
End Proofs.

Section Rows.
  Context {T : Type} {NT : Num T}.
  Notation file := (list (sym T)).
  Lemma split_join : forall sep a b, split (T := T) sep (a ++ Ch sep :: b) = split sep a ++ split sep b.
  Proof.
    intros sep a b. induction a as [|c a IH].
    - cbn [app split is_ch]. rewrite Ascii.eqb_refl. reflexivity.
    - cbn [app split]. rewrite IH. destruct (is_ch sep c); [reflexivity|]. destruct (split_some sep a) as (f & fs & E). rewrite E. reflexivity.
  Qed.
  Definition ended (f : file) : Prop := f = [] \/ exists a, f = a ++ newline.
  Lemma removelast_tail : forall {A} (l : list A) m, m <> [] -> removelast (l ++ m) = l ++ removelast m.
  Proof. intros A l m H. apply removelast_app, H. Qed.
  Lemma table_app : forall a b : file, ended a -> table (a ++ b) = table a ++ table b.
  Proof.
    intros a b [->|[a' ->]]; [reflexivity|]. unfold table. rewrite <- map_app. f_equal. unfold lines, newline. rewrite <- app_assoc. cbn [app]. rewrite !split_join.
    destruct (split_some "010" b) as (f & fs & E). rewrite !removelast_tail by (rewrite ?E; discriminate). cbn [split removelast]. rewrite app_nil_r. reflexivity.
  Qed.
  Lemma ended_app : forall a b : file, ended a -> ended b -> ended (a ++ b).
  Proof. intros a b A [->|[b' ->]]; [rewrite app_nil_r; exact A|]. right. exists (a ++ b'). rewrite app_assoc. reflexivity. Qed.

  Lemma plain_clean : forall s, plain s = true -> clean (T := T) "," (text s) /\ clean (T := T) "010" (text s).
  Proof. exact clean_text. Qed.

  (** the lines of four columns each *)
  Lemma row_table : forall title (cells : nat -> list file) n b, plain title = true ->
    (forall i, i < n -> length (cells i) = 4 /\ Forall (clean ",") (cells i) /\ Forall (clean "010") (cells i)) ->
    exists row, table (text title ++ items (flat_map cells (seq 0 n)) ++ newline ++ b) = row :: table b /\ row_of title cells n row.
  Proof.
    intros title cells n b P H. destruct (clean_text (T := T) title P) as [P1 P2].
    exists (text title :: flat_map cells (seq 0 n)). split.
    - apply table_cons; [assumption|assumption| |]; apply Forall_flat; intros i I; apply in_seq in I; apply H; lia.
    - assert (L : forall x, In x (seq 0 n) -> length (cells x) = 4) by (intros i I; apply in_seq in I; apply H; lia).
      destruct (columns cells [] (seq 0 n) L) as [A B]. rewrite seq_length in A. split; [cbn [length]; lia|]. split; [reflexivity|].
      intros i j I J. replace (1 + 4 * i + j) with (S (4 * i + j)) by lia. cbn [nth]. apply B; [|exact J].
      rewrite (nth_error_nth' (seq 0 n) 0) by (rewrite seq_length; exact I). rewrite seq_nth by exact I. reflexivity.
  Qed.
  Lemma flat_map_seq : forall {A B} (f : A -> list B) (d : A) l, flat_map f l = flat_map (fun i => f (nth i l d)) (seq 0 (length l)).
  Proof.
    intros A B f d l. induction l as [|x l IH]; [reflexivity|]. cbn [length seq flat_map nth]. f_equal. rewrite IH, <- seq_shift, !flat_map_concat_map, map_map. reflexivity.
  Qed.
  Lemma names_table : forall title names b, plain title = true -> forallb plain names = true ->
    exists l1 l2, table (write_names title names ++ b) = l1 :: l2 :: table b /\
      row_of title (names_of names) (length names) l1 /\ row_of (T := T) "DESCRIPTION" description (length names) l2.
  Proof.
    intros title names b P N.
    assert (K : forall i, i < length names -> plain (nth i names ""%string) = true).
    { intros i I. rewrite forallb_forall in N. apply N, nth_In, I. }
    destruct (row_table "DESCRIPTION" description (length names) b eq_refl) as (l2 & E2 & R2).
    { intros i _. split; [reflexivity|]. split; repeat (apply Forall_cons; [apply plain_clean; reflexivity|]); apply Forall_nil. }
    destruct (row_table title (names_of names) (length names) (text "DESCRIPTION" ++ items (flat_map description (seq 0 (length names))) ++ newline ++ b) P) as (l1 & E1 & R1).
    { intros i I. destruct (plain_clean _ (K i I)). unfold names_of. cbn [repeat]. split; [reflexivity|]. split; repeat (apply Forall_cons; [assumption|]); apply Forall_nil. }
    exists l1, l2. split; [|split; assumption]. rewrite <- E2, <- E1. f_equal. unfold write_names. rewrite <- !app_assoc. f_equal.
    rewrite (items_flat (fun n => [text n; text n; text n; text n])), (items_flat (fun _ => [text "oldexact"; text "dapprox"; text "dexact"; text "ratio"])).
    rewrite (flat_map_seq (fun n => [text n; text n; text n; text n]) ""%string names), (flat_map_seq (fun _ => [text "oldexact"; text "dapprox"; text "dexact"; text "ratio"]) ""%string names).
    reflexivity.
  Qed.
  Lemma ended_names : forall title names, ended (write_names (T := T) title names).
  Proof. intros. right. unfold write_names. rewrite !app_assoc. eexists. reflexivity. Qed.

  Lemma write_costs_ok : forall vars costs cnts r h, fits vars costs cnts r -> forallb plain costs = true ->
    exists out, write_costs r h = Ok out /\ ended out /\ exists heads row, table out = heads ++ [row] /\ row_of "COSTS" (cost_cells r) (length costs) row /\
      if h then exists l1 l2, heads = [l1; l2] /\ row_of "COST NAMES" (names_of costs) (length costs) l1 /\ row_of "DESCRIPTION" description (length costs) l2
      else heads = [].
  Proof.
    intros vars costs cnts r h [Fv Fc Fn Fx C1 C2 C3 V1 V2 V3 Fm] P. unfold write_costs.
    rewrite (write_all_ok (write_cost r) (cost_cells r)).
    2:{ intros i I. apply in_seq in I. unfold write_cost. rewrite !at_in by lia. reflexivity. }
    cbn [obind]. eexists. split; [reflexivity|].
    destruct (row_table "COSTS" (cost_cells r) (length costs) [] eq_refl) as (row & E & Rw).
    { intros i _. split; [reflexivity|]. unfold cost_cells. split; repeat (apply Forall_cons; [apply clean_num|]); (apply Forall_cons; [|apply Forall_nil]);
      (destruct (_ >? _)%num; [apply clean_num|apply plain_clean; reflexivity]). }
    rewrite app_nil_r in E. rewrite C1.
    split.
    - apply ended_app; [destruct h; [apply ended_names|left; reflexivity]|]. right. rewrite app_assoc. eexists. reflexivity.
    - destruct h.
      + rewrite Fc. destruct (names_table "COST NAMES" costs (text "COSTS" ++ items (flat_map (cost_cells r) (seq 0 (length costs))) ++ newline) eq_refl P) as (l1 & l2 & E' & R1 & R2).
        exists [l1; l2], row. rewrite E', E. split; [reflexivity|]. split; [assumption|]. exists l1, l2. auto.
      + exists [], row. split; [exact E|]. split; [assumption|reflexivity].
  Qed.
  Lemma write_constraints_ok : forall vars costs cnts r h, fits vars costs cnts r -> forallb plain cnts = true ->
    exists out, write_constraints r h = Ok out /\ ended out /\ exists heads row, table out = heads ++ [row] /\ row_of "CONSTRAINTS" (cnt_cells r) (length cnts) row /\
      if h then exists l1 l2, heads = [l1; l2] /\ row_of "CONSTRAINT NAMES" (names_of cnts) (length cnts) l1 /\ row_of "DESCRIPTION" description (length cnts) l2
      else heads = [].
  Proof.
    intros vars costs cnts r h [Fv Fc Fn Fx C1 C2 C3 V1 V2 V3 Fm] P. unfold write_constraints.
    rewrite (write_all_ok (write_cnt r) (cnt_cells r)).
    2:{ intros i I. apply in_seq in I. unfold write_cnt. rewrite !at_in by lia. reflexivity. }
    cbn [obind]. eexists. split; [reflexivity|].
    destruct (row_table "CONSTRAINTS" (cnt_cells r) (length cnts) [] eq_refl) as (row & E & Rw).
    { intros i _. split; [reflexivity|]. unfold cnt_cells. split; repeat (apply Forall_cons; [apply clean_num|]); (apply Forall_cons; [|apply Forall_nil]);
      (destruct (_ >? _)%num; [apply clean_num|apply plain_clean; reflexivity]). }
    rewrite app_nil_r in E. rewrite V1.
    split.
    - apply ended_app; [destruct h; [apply ended_names|left; reflexivity]|]. right. rewrite app_assoc. eexists. reflexivity.
    - destruct h.
      + rewrite Fn. destruct (names_table "CONSTRAINT NAMES" cnts (text "CONSTRAINTS" ++ items (flat_map (cnt_cells r) (seq 0 (length cnts))) ++ newline) eq_refl P) as (l1 & l2 & E' & R1 & R2).
        exists [l1; l2], row. rewrite E', E. split; [reflexivity|]. split; [assumption|]. exists l1, l2. auto.
      + exists [], row. split; [exact E|]. split; [assumption|reflexivity].
  Qed.
End Rows.

Section Traj.
  Context {T : Type} {NT : Num T}.
  Notation file := (list (sym T)).
  Fixpoint glue (fs : list file) (links : list (string * list T)) : list file :=
    match links with
    | [] => fs
    | l :: links => glue (removelast fs ++ [last fs [] ++ text (fst l) ++ text ": "] ++ map num (snd l)) links
    end.
  Lemma join_app : forall (fs l : list file), fs <> [] -> join fs ++ items l = join (fs ++ l).
  Proof. intros [|f fs] l N; [congruence|]. cbn [join app]. unfold items. rewrite flat_map_app, app_assoc. reflexivity. Qed.
  Lemma join_snoc : forall (fs : list file) f s, join (fs ++ [f]) ++ s = join (fs ++ [f ++ s]).
  Proof. intros [|g fs] f s; cbn [app join]; [unfold items; cbn; rewrite !app_nil_r; reflexivity|]. unfold items. rewrite !flat_map_app. cbn [flat_map item]. rewrite <- !app_assoc. cbn [app]. rewrite !app_nil_r. reflexivity. Qed.
  Lemma glue_join : forall links (fs : list file), fs <> [] -> join fs ++ flat_map write_link links = join (glue fs links).
  Proof.
    induction links as [|l links IH]; intros fs N; cbn [flat_map glue]; [apply app_nil_r|].
    rewrite <- IH by (destruct (removelast fs); discriminate). rewrite app_assoc. f_equal. unfold write_link.
    rewrite (app_removelast_last [] N) at 1. rewrite (app_assoc (text (fst l))), app_assoc, join_snoc, join_app by (destruct (removelast fs); discriminate).
    rewrite <- app_assoc. reflexivity.
  Qed.
  Lemma glue_nonempty : forall links fs, fs <> [] -> glue fs links <> [].
  Proof. induction links as [|l links IH]; intros fs N; [exact N|]. cbn [glue]. apply IH. destruct (removelast fs); discriminate. Qed.
  Lemma glue_clean : forall sep links fs, (forall l, In l links -> clean (T := T) sep (text (fst l))) -> clean sep (text (T := T) ": ") -> Forall (clean sep) fs -> Forall (clean sep) (glue fs links).
  Proof.
    intros sep. induction links as [|l links IH]; intros fs L C F; [exact F|]. cbn [glue]. apply IH; [intros x I; apply L; right; exact I|exact C|].
    assert (D : clean sep (last fs [])) by (destruct fs as [|f fs]; [intros s []|]; rewrite Forall_forall in F; apply F; destruct (exists_last (l := f :: fs) ltac:(discriminate)) as (b & x & E); rewrite E, last_last; apply in_or_app; right; left; reflexivity).
    assert (Rm : Forall (clean sep) (removelast fs)). { destruct fs as [|f fs]; [constructor|]. destruct (exists_last (l := f :: fs) ltac:(discriminate)) as (b & x & E). rewrite E in *. rewrite removelast_last. apply Forall_app in F. apply F. }
    apply Forall_app. split; [exact Rm|]. constructor; [|apply clean_nums]. apply clean_app; [exact D|]. apply clean_app; [apply L; left; reflexivity|exact C].
  Qed.
  Lemma removelast_length : forall {A} (l : list A), l <> [] -> length l = S (length (removelast l)).
  Proof. intros A l N. destruct (exists_last N) as (b & x & ->). rewrite removelast_last, app_length. cbn. lia. Qed.
  Lemma nth_removelast : forall {A} (l : list A) d i, S i < length l -> nth i (removelast l) d = nth i l d.
  Proof.
    intros A l d i H. assert (N : l <> []) by (intros ->; cbn in H; lia). rewrite (app_removelast_last d N) at 2. rewrite app_nth1; [reflexivity|]. pose proof (removelast_length l N). lia.
  Qed.
  Lemma nth_last_ : forall {A} (l : list A) d, l <> [] -> nth (length l - 1) l d = last l d.
  Proof. intros A l d N. rewrite (app_removelast_last d N) at 2. rewrite (removelast_length l N). rewrite app_nth2 by lia. replace (S (length (removelast l)) - 1 - length (removelast l)) with 0 by lia. reflexivity. Qed.
  Lemma tag_cons : forall (l : string * list T) links k, tag (l :: links) (S k) = tag links k.
  Proof. reflexivity. Qed.
  (** where everything is *)
  Lemma glue_spec : forall links (fs : list file), fs <> [] -> well links ->
    length (glue fs links) = length fs + 7 * length links /\
    (forall i, i < length fs -> nth i (glue fs links) [] = nth i fs [] ++ (if S i =? length fs then tag links 0 else [])) /\
    (forall k l j, nth_error links k = Some l -> j < 7 ->
       nth (length fs + 7 * k + j) (glue fs links) [] = num (nth j (snd l) nzero) ++ (if j =? 6 then tag links (S k) else [])).
  Proof.
    induction links as [|l links IH]; intros fs N W.
    - cbn [glue]. split; [cbn [length]; lia|]. split; [intros i I; destruct (_ =? _); cbn; rewrite app_nil_r; reflexivity|]. intros [|k] l j E; discriminate.
    - cbn [glue]. set (fs' := removelast fs ++ [last fs [] ++ text (fst l) ++ text ": "] ++ map num (snd l)).
      destruct (W l (or_introl eq_refl)) as [_ L7]. pose proof (removelast_length fs N) as Lf.
      assert (Lf' : length fs' = length fs + 7). { unfold fs'. rewrite !app_length, map_length. cbn [length]. lia. }
      destruct (IH fs') as (A & B & C). { unfold fs'. destruct (removelast fs); discriminate. } { intros x I. apply W. right. exact I. }
      assert (Hp : forall j, j < 7 -> nth (length fs + j) fs' [] = num (nth j (snd l) nzero)).
      { intros j J. unfold fs'. rewrite app_nth2 by lia. replace (length fs + j - length (removelast fs)) with (S j) by lia. cbn [app nth].
        rewrite nth_indep with (d' := num nzero) by (rewrite map_length; lia). apply map_nth. }
      split; [rewrite A, Lf'; cbn [length]; lia|]. split.
      + intros i I. rewrite B by lia. assert ((S i =? length fs') = false) as -> by (apply Nat.eqb_neq; lia). rewrite app_nil_r. unfold fs'.
        destruct (Nat.eqb_spec (S i) (length fs)) as [E|E].
        * rewrite app_nth2 by lia. replace (i - length (removelast fs)) with 0 by lia. cbn [app nth]. unfold tag. cbn [nth_error].
          replace i with (length fs - 1) by lia. rewrite nth_last_ by assumption. reflexivity.
        * rewrite app_nth1 by lia. rewrite nth_removelast by lia. rewrite app_nil_r. reflexivity.
      + intros [|k] l' j E J.
        * injection E as <-. replace (length fs + 7 * 0 + j) with (length fs + j) by lia. rewrite B by lia. rewrite Hp by assumption. rewrite tag_cons. f_equal.
          destruct (Nat.eqb_spec (S (length fs + j)) (length fs')), (Nat.eqb_spec j 6); auto; lia.
        * cbn [nth_error] in E. specialize (C k l' j E J). rewrite tag_cons, <- C. f_equal. lia.
  Qed.
End Traj.
