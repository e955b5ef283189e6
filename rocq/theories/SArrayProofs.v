(** Proofs about the array. *)
From Coq Require Import List Arith Bool Lia.
From Verif Require Import Common SArrayModel SArraySpec.
Import ListNotations.

Section Proofs.
  Context {T : Type}.
  Variable eqb : T -> T -> bool.
  Variable N : nat.
  Variable size_max : nat.
  Hypothesis HN : 0 < N.
  Notation data := (@data T N).
  Notation set_data := (@set_data T N).

  Definition wf (s : sarray T) : Prop :=
    length (inl s) = N /\
    ((maxsize s = N /\ heap s = None) \/
     (N < maxsize s /\ exists b, heap s = Some b /\ length b = maxsize s)).

  Definition holds (s : sarray T) (l : list (cell T)) : Prop :=
    wf s /\ size s = length l /\ exists rest, data s = Ok (l ++ rest) /\ length (l ++ rest) = maxsize s.

  Lemma holds_elements s l : holds s l -> elements N s l.
  Proof.
    intros (_ & Hs & rest & Hd & _). split; [exact Hs|]. exists (l ++ rest). split; [exact Hd|].
    rewrite firstn_app, firstn_all, Nat.sub_diag. cbn. apply app_nil_r.
  Qed.

  Lemma wf_data s : wf s -> exists b, data s = Ok b /\ length b = maxsize s.
  Proof.
    intros (Hi & [(Hm & Hh)|(Hm & b & Hh & Hb)]); unfold SArrayModel.data.
    - rewrite Hm, Nat.eqb_refl. exists (inl s). now rewrite Hi.
    - replace (maxsize s =? N) with false by (symmetry; apply Nat.eqb_neq; lia). rewrite Hh. now exists b.
  Qed.

  Lemma data_set s b : data (set_data s b) = Ok b.
  Proof.
    unfold SArrayModel.data, SArrayModel.set_data. destruct (maxsize s =? N) eqn:E; cbn; now rewrite E.
  Qed.
  Lemma set_maxsize s b : maxsize (set_data s b) = maxsize s.
  Proof. unfold SArrayModel.set_data. now destruct (maxsize s =? N). Qed.
  Lemma set_size_ s b : size (set_data s b) = size s.
  Proof. unfold SArrayModel.set_data. now destruct (maxsize s =? N). Qed.
  Lemma data_size s n : data (set_size s n) = data s.
  Proof. reflexivity. Qed.

  Lemma wf_set s b : wf s -> length b = maxsize s -> wf (set_data s b).
  Proof.
    intros (Hi & H) Hb. unfold SArrayModel.set_data. destruct (maxsize s =? N) eqn:E.
    - apply Nat.eqb_eq in E. split; cbn; [lia|]. destruct H as [(Hm & Hh)|(Hm & _)]; [left; auto|lia].
    - apply Nat.eqb_neq in E. split; cbn; [exact Hi|]. destruct H as [(Hm & _)|(Hm & _)]; [lia|].
      right. split; [exact Hm|]. exists b. auto.
  Qed.
  Lemma wf_size s n : wf s -> wf (set_size s n).
  Proof. intros H. exact H. Qed.

  Lemma wf_max s : wf s -> N <= maxsize s.
  Proof. intros (_ & [(H & _)|(H & _)]); lia. Qed.

  (** Replacing the block. *)
  Lemma holds_make s l rest :
    wf s -> length (l ++ rest) = maxsize s -> holds (set_size (set_data s (l ++ rest)) (length l)) l.
  Proof.
    intros Hw Hl. split; [apply wf_size, wf_set; assumption|]. split; [reflexivity|].
    exists rest. rewrite data_size, data_set. split; [reflexivity|]. cbn. now rewrite set_maxsize.
  Qed.

  Lemma new_holds : holds (sa_new N) [].
  Proof.
    split; [split; [apply repeat_length|left; split; reflexivity]|]. split; [reflexivity|].
    exists (repeat None N). split; [|apply repeat_length].
    unfold SArrayModel.data, sa_new; cbn. now rewrite Nat.eqb_refl.
  Qed.

  Lemma clear_holds s l : holds s l -> holds (sa_clear N s) [].
  Proof.
    intros ((Hi & _) & _). split; [split; [exact Hi|left; split; reflexivity]|]. split; [reflexivity|].
    exists (inl s). split; [|exact Hi]. unfold SArrayModel.data, sa_clear; cbn. now rewrite Nat.eqb_refl.
  Qed.

  Lemma write_ok (b : list (cell T)) i c :
    i < length b -> write b i c = Ok (firstn i b ++ c :: skipn (S i) b).
  Proof. intros H. unfold write. now replace (i <? length b) with true by (symmetry; apply Nat.ltb_lt; lia). Qed.

  Lemma memcpy_ok (d b : list (cell T)) n :
    n <= length d -> n <= length b -> memcpy d b n = Ok (firstn n b ++ skipn n d).
  Proof.
    intros H1 H2. unfold memcpy. apply Nat.leb_le in H1, H2. now rewrite H1, H2.
  Qed.

  (** [Resize]. *)
  Lemma firstn_app_exact {A} (l r : list A) : firstn (length l) (l ++ r) = l.
  Proof. rewrite firstn_app, firstn_all, Nat.sub_diag. cbn. apply app_nil_r. Qed.
  Lemma skipn_app_exact {A} (l r : list A) : skipn (length l) (l ++ r) = r.
  Proof. rewrite skipn_app, skipn_all, Nat.sub_diag. reflexivity. Qed.

  Lemma alloc_holds s l n :
    holds s l -> exists s', sa_allocate N s n = Ok s' /\ holds s' l /\ n <= maxsize s'.
  Proof.
    intros (Hw & Hs & rest & Hd & Hl). unfold sa_allocate.
    destruct (Nat.ltb_spec (maxsize s) n) as [H|H].
    - rewrite Hd. cbn [obind]. rewrite app_length in Hl.
      rewrite memcpy_ok by (rewrite ?repeat_length, ?app_length; lia). cbn [obind].
      rewrite Hs, firstn_app_exact. eexists. split; [reflexivity|]. split; [|cbn; lia].
      pose proof (wf_max s Hw) as HmN.
      assert (Hlen : length (l ++ skipn (length l) (repeat (None : cell T) n)) = n).
      { rewrite app_length, skipn_length, repeat_length. lia. }
      split.
      + split; [apply Hw|]. cbn. right. split; [lia|]. eexists. split; [reflexivity|]. exact Hlen.
      + split; [reflexivity|]. eexists. split; [|cbn; exact Hlen].
        unfold SArrayModel.data; cbn. now replace (n =? N) with false by (symmetry; apply Nat.eqb_neq; lia).
    - exists s. split; [reflexivity|]. split; [|lia]. split; [exact Hw|]. split; [exact Hs|].
      now exists rest.
  Qed.

  Lemma resize_holds s l n :
    holds s l ->
    exists s' l', sa_resize N s n = Ok s' /\ holds s' l' /\ length l' = n /\
                  firstn n l = firstn (length l) l'.
  Proof.
    intros Hh. destruct (alloc_holds s l n Hh) as (s1 & E & (Hw & Hs & rest & Hd & Hl) & Hn).
    unfold sa_resize. rewrite E. cbn [obind].
    assert (Hf : length (firstn n (l ++ rest)) = n) by (rewrite firstn_length, Hl; lia).
    exists (set_size s1 n), (firstn n (l ++ rest)). split; [reflexivity|]. split.
    - split; [exact Hw|]. split; [cbn; now rewrite Hf|].
      exists (skipn n (l ++ rest)). rewrite data_size, firstn_skipn. split; [exact Hd|]. exact Hl.
    - split; [exact Hf|]. rewrite firstn_firstn. rewrite firstn_app.
      destruct (Nat.le_ge_cases n (length l)) as [H|H].
      + replace (Nat.min (length l) n) with n by lia.
        replace (n - length l) with 0 by lia. cbn. now rewrite app_nil_r.
      + replace (Nat.min (length l) n) with (length l) by lia. rewrite Nat.sub_diag. cbn.
        rewrite app_nil_r, firstn_all. now apply firstn_all2.
  Qed.

  (** [PushBack]. *)
  Lemma grow_holds s l :
    holds s l -> exists s', sa_grow N s = Ok s' /\ holds s' l /\ length l < maxsize s' /\
                 (length l < maxsize s -> s' = s).
  Proof.
    intros (Hw & Hs & rest & Hd & Hl). unfold sa_grow. rewrite Hs.
    pose proof (wf_max s Hw) as HmN.
    destruct (Nat.eqb_spec (length l) (maxsize s)) as [H|H].
    - rewrite Hd. cbn [obind].
      rewrite memcpy_ok by (rewrite ?repeat_length, ?Hl; lia). cbn [obind].
      eexists. split; [reflexivity|].
      assert (Hr : rest = []).
      { rewrite app_length in Hl. destruct rest; [reflexivity|cbn in Hl; lia]. }
      subst rest. rewrite app_nil_r. rewrite <- H, firstn_all.
      assert (Hlen : length (l ++ skipn (length l) (repeat (None : cell T) (2 * length l))) = 2 * length l).
      { rewrite app_length, skipn_length, repeat_length. lia. }
      split; [|split; [cbn [maxsize]; lia|lia]].
      split.
      + split; [apply Hw|]. cbn [maxsize heap inl]. right. split; [lia|]. eexists. split; [reflexivity|]. exact Hlen.
      + split; [reflexivity|]. eexists. split; [|cbn [maxsize]; exact Hlen].
        unfold SArrayModel.data; cbn [maxsize heap].
        now replace (2 * length l =? N) with false by (symmetry; apply Nat.eqb_neq; lia).
    - rewrite app_length in Hl. exists s. split; [reflexivity|]. split; [|split; [lia|reflexivity]].
      split; [exact Hw|]. split; [exact Hs|]. exists rest. rewrite app_length. auto.
  Qed.

  Lemma put_holds s l v :
    holds s l -> length l < maxsize s -> exists s', sa_put N s v = Ok s' /\ holds s' (l ++ [Some v]).
  Proof.
    intros (Hw & Hs & rest & Hd & Hl) Hlt. unfold sa_put. rewrite Hd. cbn [obind].
    rewrite Hs, write_ok by lia. cbn [obind]. eexists. split; [reflexivity|].
    rewrite app_length in Hl. destruct rest as [|c rest]; [cbn in Hl; lia|].
    rewrite firstn_app_exact.
    replace (skipn (S (length l)) (l ++ c :: rest)) with rest.
    2:{ replace (l ++ c :: rest) with ((l ++ [c]) ++ rest) by (now rewrite <- app_assoc).
        replace (S (length l)) with (length (l ++ [c])) by (rewrite app_length; cbn; lia).
        symmetry. apply skipn_app_exact. }
    replace (S (length l)) with (length (l ++ [Some v])) by (rewrite app_length; cbn; lia).
    pose proof (holds_make s (l ++ [Some v]) rest Hw) as Hk. rewrite <- app_assoc in Hk. cbn [app] in Hk.
    apply Hk. rewrite !app_length. cbn in *. lia.
  Qed.

  Lemma push_holds s l v :
    holds s l -> exists s', sa_push N s v = Ok s' /\ holds s' (l ++ [Some v]).
  Proof.
    intros Hh. destruct (grow_holds s l Hh) as (s1 & E & H1 & Hlt & _). unfold sa_push. rewrite E.
    cbn [obind]. now apply put_holds.
  Qed.

  (** Reading. *)
  Lemma nth_at (l rest : list (cell T)) i x : at_ l i x -> read (l ++ rest) i = Ok x.
  Proof.
    intros H. unfold read. rewrite nth_error_app1.
    - now rewrite H.
    - apply nth_error_Some. rewrite H. discriminate.
  Qed.

  Lemma get_holds s l i x : holds s l -> at_ l i x -> sa_get N s i = Ok x.
  Proof.
    intros (Hw & Hs & rest & Hd & Hl) Hx. unfold sa_get. rewrite Hd. cbn [obind]. now apply nth_at.
  Qed.

  Lemma push_own_holds s l i x :
    holds s l -> at_ l i x -> length l < maxsize s \/ maxsize s = N ->
    exists s', sa_push_own N s i = Ok s' /\ holds s' (l ++ [Some x]).
  Proof.
    intros Hh Hx Hc. destruct (grow_holds s l Hh) as (s1 & E & H1 & Hlt & _). unfold sa_push_own.
    rewrite E. cbn [obind].
    assert (Hr : (if size s =? maxsize s then if maxsize s =? N then read (inl s) i else Undef
                  else sa_get N s i) = Ok x).
    { pose proof (get_holds s l i x Hh Hx) as Hg.
      destruct Hh as (Hw & Hs & rest & Hd & Hl). rewrite Hs.
      destruct (Nat.eqb_spec (length l) (maxsize s)) as [He|He]; [|exact Hg].
      destruct Hc as [Hc|Hc]; [lia|]. rewrite Hc, Nat.eqb_refl.
      unfold sa_get, SArrayModel.data in Hg. rewrite Hc, Nat.eqb_refl in Hg. exact Hg. }
    rewrite Hr. cbn [obind]. now apply put_holds.
  Qed.

  Lemma set_holds s l i v :
    holds s l -> i < length l ->
    exists s' l', sa_set N s i v = Ok s' /\ holds s' l' /\ length l' = length l /\ at_ l' i v /\
                  forall j, j <> i -> nth_error l' j = nth_error l j.
  Proof.
    intros (Hw & Hs & rest & Hd & Hl) Hi. unfold sa_set. rewrite Hd. cbn [obind].
    rewrite write_ok by (rewrite app_length; lia). cbn [obind].
    set (l' := firstn i l ++ Some v :: skipn (S i) l).
    assert (Hll : length l' = length l).
    { unfold l'. rewrite app_length, firstn_length. cbn [length]. rewrite skipn_length. lia. }
    assert (Hb : firstn i (l ++ rest) ++ Some v :: skipn (S i) (l ++ rest) = l' ++ rest).
    { rewrite firstn_app, skipn_app. replace (i - length l) with 0 by lia.
      replace (S i - length l) with 0 by lia. cbn [firstn skipn]. rewrite app_nil_r.
      unfold l'. now rewrite <- app_assoc. }
    rewrite Hb. eexists. exists l'. split; [reflexivity|]. split; [|split; [exact Hll|]].
    - assert (Hm : length (l' ++ rest) = maxsize s) by (rewrite app_length in *; lia).
      pose proof (holds_make s l' rest Hw Hm) as Hk.
      replace (set_data s (l' ++ rest)) with (set_size (set_data s (l' ++ rest)) (length l')); [exact Hk|].
      unfold set_size. rewrite Hll, <- Hs, <- (set_size_ s (l' ++ rest)). now destruct (set_data s (l' ++ rest)).
    - split.
      + unfold at_, l'. rewrite nth_error_app2 by (rewrite firstn_length; lia).
        rewrite firstn_length. replace (i - Nat.min i (length l)) with 0 by lia. reflexivity.
      + intros j Hj. unfold l'. destruct (Nat.lt_ge_cases j i) as [H|H].
        * rewrite nth_error_app1 by (rewrite firstn_length; lia).
          rewrite <- (firstn_skipn i l) at 2. rewrite nth_error_app1 by (rewrite firstn_length; lia). reflexivity.
        * rewrite nth_error_app2 by (rewrite firstn_length; lia).
          rewrite firstn_length. replace (Nat.min i (length l)) with i by lia.
          rewrite <- (firstn_skipn (S i) l) at 2.
          rewrite (nth_error_app2 (firstn (S i) l)) by (rewrite firstn_length; lia).
          rewrite firstn_length. replace (Nat.min (S i) (length l)) with (S i) by lia.
          destruct (j - i) as [|k] eqn:Ek; [lia|]. cbn. f_equal. lia.
  Qed.

  Lemma pop_holds s l c : holds s (l ++ [c]) -> holds (sa_pop size_max s) l.
  Proof.
    intros (Hw & Hs & rest & Hd & Hl). unfold sa_pop. rewrite Hs, app_length. cbn [length].
    rewrite Nat.add_1_r. split; [exact Hw|]. split; [reflexivity|].
    exists (c :: rest). rewrite data_size. rewrite <- app_assoc in Hd, Hl. auto.
  Qed.

  (** [Find]. *)
  Lemma find_loop_ok (rest : list (cell T)) v : forall l a,
    written l ->
    (forall j y, at_ a j y -> eqb v y = false) ->
    (exists i, find_loop eqb (a ++ l ++ rest) v (length a) (length l) = Ok (true, i) /\
               first_at eqb v (a ++ l) i) \/
    (find_loop eqb (a ++ l ++ rest) v (length a) (length l) = Ok (false, length (a ++ l)) /\
     nowhere eqb v (a ++ l)).
  Proof.
    induction l as [|c l IH]; intros a Hw Ha.
    - right. cbn. rewrite app_nil_r. split; [reflexivity|exact Ha].
    - destruct c as [x|]; [|exfalso; now apply (Hw None (or_introl eq_refl))].
      cbn [find_loop length].
      assert (Hr : read (a ++ (Some x :: l) ++ rest) (length a) = Ok x).
      { unfold read. rewrite nth_error_app2 by lia. rewrite Nat.sub_diag. reflexivity. }
      rewrite Hr. cbn [obind]. destruct (eqb v x) eqn:Ex.
      + left. exists (length a). split; [reflexivity|]. split.
        * exists x. split; [|exact Ex]. unfold at_. rewrite nth_error_app2, Nat.sub_diag by lia. reflexivity.
        * intros j y Hj Hy. apply (Ha j). unfold at_ in *. now rewrite nth_error_app1 in Hy.
      + assert (Hw' : written l) by (intros c Hc; apply Hw; now right).
        assert (Ha' : forall j y, at_ (a ++ [Some x]) j y -> eqb v y = false).
        { intros j y Hy. destruct (Nat.lt_ge_cases j (length a)) as [H|H].
          - apply (Ha j). unfold at_ in *. now rewrite nth_error_app1 in Hy.
          - unfold at_ in Hy. rewrite nth_error_app2 in Hy by lia.
            destruct (j - length a) as [|k]; cbn in Hy; [injection Hy as <-; exact Ex|destruct k; discriminate]. }
        specialize (IH (a ++ [Some x]) Hw' Ha'). rewrite app_length in IH. cbn [length] in IH.
        rewrite Nat.add_1_r in IH. rewrite <- !app_assoc in IH. exact IH.
  Qed.

  Lemma find_holds s l v :
    holds s l -> written l ->
    (exists i, sa_find eqb N s v = Ok (true, i) /\ first_at eqb v l i) \/
    (sa_find eqb N s v = Ok (false, length l) /\ nowhere eqb v l).
  Proof.
    intros (Hw & Hs & rest & Hd & Hl) Hwr. unfold sa_find. rewrite Hd. cbn [obind]. rewrite Hs.
    apply (find_loop_ok rest v l []); [exact Hwr|]. intros j y Hy. unfold at_ in Hy. now destruct j.
  Qed.

  (** [Erase]. *)
  Lemma shift_loop_ok (rest : list (cell T)) : forall b a c,
    exists c', shift_loop (a ++ c :: b ++ rest) (length a + 1) (length b) = Ok (a ++ b ++ c' :: rest).
  Proof.
    induction b as [|d b IH]; intros a c.
    - exists c. reflexivity.
    - cbn [length shift_loop].
      assert (Hn : nth_error (a ++ c :: (d :: b) ++ rest) (length a + 1) = Some d).
      { rewrite nth_error_app2 by lia. replace (length a + 1 - length a) with 1 by lia. reflexivity. }
      rewrite Hn. rewrite Nat.add_sub.
      rewrite write_ok by (rewrite app_length; cbn; lia). cbn [obind].
      rewrite firstn_app_exact.
      replace (skipn (S (length a)) (a ++ c :: (d :: b) ++ rest)) with (d :: b ++ rest).
      2:{ change (a ++ c :: (d :: b) ++ rest) with (a ++ [c] ++ d :: b ++ rest). rewrite app_assoc.
          replace (S (length a)) with (length (a ++ [c])) by (rewrite app_length; cbn; lia).
          symmetry. apply skipn_app_exact. }
      destruct (IH (a ++ [d]) d) as (c' & E). exists c'.
      replace (a ++ d :: d :: b ++ rest) with ((a ++ [d]) ++ d :: b ++ rest) by (now rewrite <- app_assoc).
      replace (S (length a + 1)) with (length (a ++ [d]) + 1) by (rewrite app_length; cbn; lia).
      rewrite E. now rewrite <- app_assoc.
  Qed.

  Lemma erase_holds s l v :
    holds s l -> written l ->
    (exists s' a c b, sa_erase eqb N s v = Ok (s', true) /\ l = a ++ c :: b /\ holds s' (a ++ b) /\
                      first_at eqb v l (length a)) \/
    (sa_erase eqb N s v = Ok (s, false) /\ nowhere eqb v l).
  Proof.
    intros Hh Hwr. unfold sa_erase.
    destruct (find_holds s l v Hh Hwr) as [(i & E & Hf)|(E & Hf)]; rewrite E; cbn [obind fst snd].
    - left. destruct Hh as (Hw & Hs & rest & Hd & Hl). rewrite Hd. cbn [obind].
      destruct Hf as ((x & Hx & Hv) & Hbefore).
      destruct (nth_error_split l i Hx) as (a & b & -> & Hi). subst i.
      rewrite Hs. rewrite app_length. cbn [length].
      replace (length a + S (length b) - (length a + 1)) with (length b) by lia.
      rewrite <- app_assoc. cbn [app].
      destruct (shift_loop_ok rest b a (Some x)) as (c' & Es). rewrite Es. cbn [obind].
      do 2 eexists. exists (Some x), b. split; [reflexivity|]. split; [reflexivity|]. split.
      + replace (length a + S (length b) - 1) with (length (a ++ b)) by (rewrite app_length; lia).
        rewrite app_assoc. apply holds_make; [exact Hw|]. rewrite <- Hl, !app_length. cbn. lia.
      + split; [exists x; auto|exact Hbefore].
    - right. auto.
  Qed.

  (** [operator=]. *)
  Lemma assign_holds s ls rhs l :
    holds s ls -> holds rhs l -> exists s', sa_assign N s rhs = Ok s' /\ holds s' l.
  Proof.
    intros (Hw & Hs & rest & Hd & Hl) (Hw2 & Hs2 & rest2 & Hd2 & Hl2). unfold sa_assign. cbv zeta.
    set (s1 := if maxsize s <? size rhs then SA (inl s) (Some (repeat None (maxsize rhs))) (size s) (maxsize rhs) else s).
    pose proof (wf_max s Hw) as HmN. rewrite app_length in Hl2.
    assert (H1 : wf s1 /\ length l <= maxsize s1).
    { unfold s1. rewrite Hs2. destruct (Nat.ltb_spec (maxsize s) (length l)) as [H|H]; [|auto].
      cbn. split; [|lia]. split; [apply Hw|]. right. cbn. split; [lia|]. eexists. split; [reflexivity|].
      apply repeat_length. }
    destruct H1 as [Hw1 Hm1]. clearbody s1. rewrite data_size.
    destruct (wf_data s1 Hw1) as (d & Ed & Ld). rewrite Ed, Hd2. cbn [obind]. rewrite Hs2.
    rewrite memcpy_ok by (rewrite ?app_length; lia). cbn [obind]. rewrite firstn_app_exact.
    eexists. split; [reflexivity|].
    assert (Hlen : length (l ++ skipn (length l) d) = maxsize s1).
    { rewrite app_length, skipn_length. lia. }
    pose proof (holds_make s1 l (skipn (length l) d) Hw1 Hlen) as Hk.
    unfold set_size, SArrayModel.set_data in *. cbn [maxsize]. destruct (maxsize s1 =? N); exact Hk.
  Qed.

  (** One operation, and all. *)
  Lemma step_holds s l o :
    holds s l -> allowed N o l ->
    exists s' r l', sa_step eqb N size_max s o = Ok (s', r) /\ holds s' l' /\ does eqb o l r l'.
  Proof.
    intros Hh Ha. destruct o; cbn [sa_step allowed does] in *.
    - destruct (push_holds s l v Hh) as (s' & E & H). rewrite E. cbn [obind]. do 3 eexists.
      split; [reflexivity|]. split; [exact H|auto].
    - destruct Ha as [(x & Hx) Hlen].
      destruct (push_own_holds s l i x Hh Hx) as (s' & E & H).
      { destruct Hh as (Hw & _). pose proof (wf_max s Hw). lia. }
      rewrite E. cbn [obind]. do 3 eexists. split; [reflexivity|]. split; [exact H|].
      split; [reflexivity|]. intros y Hy. unfold at_ in *. congruence.
    - destruct (exists_last Ha) as (l' & c & ->). do 2 eexists. exists l'. split; [reflexivity|].
      split; [now apply pop_holds in Hh|]. split; [reflexivity|]. now exists c.
    - destruct (resize_holds s l n Hh) as (s' & l' & E & H & H1 & H2). rewrite E. cbn [obind].
      do 3 eexists. split; [reflexivity|]. split; [exact H|auto].
    - destruct Ha as (x & Hx). rewrite (get_holds s l i x Hh Hx). cbn [obind].
      do 3 eexists. split; [reflexivity|]. split; [exact Hh|]. split; [reflexivity|]. now exists x.
    - destruct (set_holds s l i v Hh Ha) as (s' & l' & E & H & H1 & H2 & H3). rewrite E. cbn [obind].
      do 3 eexists. split; [reflexivity|]. split; [exact H|auto].
    - destruct (find_holds s l v Hh Ha) as [(i & E & H)|(E & H)]; rewrite E; cbn [obind fst snd];
        (do 3 eexists; split; [reflexivity|]; split; [exact Hh|]; split; [reflexivity|]).
      + left. now exists i.
      + right. auto.
    - unfold sa_insert. destruct (find_holds s l v Hh Ha) as [(i & E & H)|(E & H)]; rewrite E; cbn [obind fst snd].
      + do 3 eexists. split; [reflexivity|]. split; [exact Hh|]. left. split; [reflexivity|].
        split; [reflexivity|]. now exists i.
      + destruct (push_holds s l v Hh) as (s' & E' & H'). rewrite E'. cbn [obind fst snd].
        do 3 eexists. split; [reflexivity|]. split; [exact H'|]. right. auto.
    - destruct (erase_holds s l v Hh Ha) as [(s' & a & c & b & E & E2 & H & H2)|(E & H)]; rewrite E; cbn [obind fst snd].
      + do 3 eexists. split; [reflexivity|]. split; [exact H|]. left. split; [reflexivity|]. now exists a, c, b.
      + do 3 eexists. split; [reflexivity|]. split; [exact Hh|]. right. auto.
    - do 3 eexists. split; [reflexivity|]. split; [now apply (clear_holds s l)|auto].
    - do 3 eexists. split; [reflexivity|]. split; [exact Hh|]. split; [reflexivity|].
      destruct Hh as (_ & -> & _). reflexivity.
  Qed.

  Lemma run_holds ops : forall s l,
    holds s l -> all_allowed eqb N ops l ->
    exists s' rs l', sa_run eqb N size_max s ops = Ok (s', rs) /\ holds s' l' /\ gives eqb ops l rs l'.
  Proof.
    induction ops as [|o ops IH]; intros s l Hh Ha.
    - exists s, [], l. split; [reflexivity|]. split; [exact Hh|reflexivity].
    - destruct Ha as [Ho Hr]. destruct (step_holds s l o Hh Ho) as (s1 & r & l1 & E & H1 & Hd).
      destruct (IH s1 l1 H1 (Hr _ _ Hd)) as (s' & rs & l' & E' & H' & Hg).
      exists s', (r :: rs), l'. cbn [sa_run]. rewrite E. cbn [obind fst snd]. rewrite E'. cbn [obind fst snd].
      split; [reflexivity|]. split; [exact H'|]. exists l1. auto.
  Qed.
End Proofs.
