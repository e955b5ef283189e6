(** * C145: sorting and searching in the array of the convex hull *)
From Coq Require Import List ZArith Bool Arith Lia Permutation.
From Verif Require Import Common SortModel SortSpec SortProofs.
Import ListNotations.
Local Open Scope Z_scope.

(** quickSort returns, touches nothing outside the array, and leaves the same elements in order, for every strict weak order. *)
Theorem C145_quick : forall (T : Type) (lt : T -> T -> bool) (a : list T) (fuel : nat), strict_weak lt -> (length a < fuel)%nat ->
  exists a', quick_sort lt fuel a = Ok a' /\ Permutation a a' /\ sorted lt a'.
Proof.
  intros T lt a fuel W Hf. unfold quick_sort. destruct (Z.ltb_spec 1 (Z.of_nat (length a))) as [K|K].
  - destruct a as [|d a0]; [cbn in K; lia|]. set (a := d :: a0) in *.
    destruct (quick_internal_ok lt W d fuel a 0 (Z.of_nat (length a) - 1)) as (b & -> & (L & P & _) & S1); try lia.
    exists b. split; [reflexivity|]. split; [exact P|]. apply (sorted_in_sorted lt d). rewrite L. exact S1.
  - exists a. split; [reflexivity|]. split; [apply Permutation_refl|]. intros l x m y r ->. rewrite !app_length in K. cbn [length] in K. rewrite app_length in K. cbn [length] in K. lia.
Qed.
Print Assumptions C145_quick.

(** So does heapSort. *)
Theorem C145_heap : forall (T : Type) (lt : T -> T -> bool) (a : list T) (fuel : nat), strict_weak lt -> (2 * length a < fuel)%nat ->
  exists a', heap_sort lt fuel a = Ok a' /\ Permutation a a' /\ sorted lt a'.
Proof.
  intros T lt a fuel W Hf. destruct a as [|d a0].
  { exists []. split; [destruct fuel; [lia|reflexivity]|]. split; [constructor|]. intros l x m y r E. destruct l; discriminate. }
  set (a := d :: a0) in *. unfold heap_sort. set (n := Z.of_nat (length a)).
  assert (Hq : 0 <= Z.quot n 2 <= n) by (rewrite Z.quot_div_nonneg by lia; split; [apply Z.div_pos; lia|apply Z.div_le_upper_bound; lia]).
  destruct (heapify_ok lt W d fuel a (Z.quot n 2) n) as (b & -> & L & P & G); try lia.
  { intros m Hm c Hc E. exfalso. subst m. assert (Z.quot c 2 <= Z.quot n 2) by (apply Z.quot_le_mono; lia). lia. }
  cbn [obind]. destruct (extract_ok lt W d fuel b n) as (e & -> & Le & Pe & Se); try lia; [exact G|].
  exists e. split; [reflexivity|]. split; [now apply (Permutation_trans P)|]. apply (sorted_in_sorted lt d). rewrite Le. exact Se.
Qed.
Print Assumptions C145_heap.

(** findBinarySearch in a sorted array finds a place of an element equivalent to the key, and the size only if there is none. *)
Theorem C145_binary : forall (T : Type) (lt : T -> T -> bool) (a : list T) (key : T) (fuel : nat), strict_weak lt -> sorted lt a -> (length a < fuel)%nat ->
  exists i, find_binary lt fuel a key = Ok i /\
    ((exists v, 0 <= i /\ nth_error a (Z.to_nat i) = Some v /\ lt v key = false /\ lt key v = false) \/
     (i = Z.of_nat (length a) /\ forall v, In v a -> lt v key = true \/ lt key v = true)).
Proof.
  intros T lt a key fuel W Hs Hf. unfold find_binary.
  destruct (bin_loop_ok lt W key a key (sorted_sorted_in lt key a Hs) fuel 0 (Z.of_nat (length a) - 1)) as (i & E & D); try lia.
  exists i. split; [exact E|]. destruct D as [(H1 & H2 & H3)|(H1 & H2)].
  - left. exists (nth (Z.to_nat i) a key). split; [lia|]. split; [apply nth_error_nth'; lia|]. split; assumption.
  - right. split; [exact H1|]. intros v Hv. destruct (In_nth a v key Hv) as (k & Hk & <-). specialize (H2 (Z.of_nat k) ltac:(lia)). now rewrite Nat2Z.id in H2.
Qed.
Print Assumptions C145_binary.

Lemma lin_none {T} (eqb : T -> T -> bool) (key : T) : forall r l fuel, (length r < fuel)%nat -> (forall v, In v r -> eqb v key = false) ->
  lin_loop eqb fuel (l ++ r) key (Z.of_nat (length l)) = Ok (Z.of_nat (length (l ++ r))).
Proof.
  induction r as [|v r IH]; intros l [|f] Hf H; cbn [length] in Hf; try lia; cbn [lin_loop].
  - rewrite app_nil_r, Z.ltb_irrefl. reflexivity.
  - destruct (Z.ltb_spec (Z.of_nat (length l)) (Z.of_nat (length (l ++ v :: r)))) as [K|K]; [|rewrite app_length in K; cbn [length] in K; lia].
    rewrite (rd_ok key) by lia. rewrite Nat2Z.id, nth_middle. cbn [obind]. rewrite (H v) by now left.
    specialize (IH (l ++ [v]) f ltac:(lia) (fun w Hw => H w (or_intror Hw))). rewrite <- app_assoc in IH. cbn [app] in IH.
    rewrite app_length, Nat2Z.inj_add in IH. exact IH.
Qed.
Lemma lin_some {T} (eqb : T -> T -> bool) (key v : T) r : eqb v key = true -> forall m l fuel, (length m < fuel)%nat -> (forall w, In w m -> eqb w key = false) ->
  lin_loop eqb fuel (l ++ m ++ v :: r) key (Z.of_nat (length l)) = Ok (Z.of_nat (length (l ++ m))).
Proof.
  intros Hv. induction m as [|w m IH]; intros l [|f] Hf H; cbn [length] in Hf; try lia; cbn [lin_loop].
  - destruct (Z.ltb_spec (Z.of_nat (length l)) (Z.of_nat (length (l ++ [] ++ v :: r)))) as [K|K]; [|rewrite app_length in K; cbn [length app] in K; lia].
    rewrite (rd_ok key) by lia. cbn [app]. rewrite Nat2Z.id, nth_middle. cbn [obind]. rewrite Hv, app_nil_r. reflexivity.
  - destruct (Z.ltb_spec (Z.of_nat (length l)) (Z.of_nat (length (l ++ (w :: m) ++ v :: r)))) as [K|K]; [|rewrite app_length in K; cbn [length app] in K; lia].
    rewrite (rd_ok key) by lia. cbn [app]. rewrite Nat2Z.id, nth_middle. cbn [obind]. rewrite (H w) by now left.
    specialize (IH (l ++ [w]) f ltac:(lia) (fun u Hu => H u (or_intror Hu))). rewrite <- !app_assoc in IH. cbn [app] in IH.
    rewrite app_length, Nat2Z.inj_add in IH. exact IH.
Qed.

(** remove leaves an array without the key alone; of the others it takes out the first element equal to the key, and nothing else (the
    last element may change its place). *)
Theorem C145_remove : forall (T : Type) (eqb : T -> T -> bool) (key : T),
  (forall a fuel, (length a < fuel)%nat -> (forall v, In v a -> eqb v key = false) -> remove eqb fuel a key = Ok a) /\
  (forall l v r fuel, (length (l ++ v :: r) < fuel)%nat -> (forall w, In w l -> eqb w key = false) -> eqb v key = true ->
     exists a', remove eqb fuel (l ++ v :: r) key = Ok a' /\ Permutation (l ++ r) a' /\ forall k, (k < length l)%nat -> nth_error a' k = nth_error l k).
Proof.
  intros T eqb key. split.
  - intros a fuel Hf H. unfold remove. assert (E := lin_none eqb key a [] fuel Hf H). cbn [app length Z.of_nat] in E. rewrite E. cbn [obind]. rewrite Z.ltb_irrefl. reflexivity.
  - intros l v r fuel Hf Hl Hv. unfold remove. assert (E0 : (length l < fuel)%nat) by (rewrite app_length in Hf; lia).
    apply (lin_some eqb key v r Hv l [] fuel) in E0; [|exact Hl]. cbn [app length Z.of_nat] in E0. rewrite E0. cbn [obind]. set (a := l ++ v :: r). assert (La : length a = (length l + S (length r))%nat) by (unfold a; rewrite app_length; reflexivity).
    destruct (Z.ltb_spec (Z.of_nat (length l)) (Z.of_nat (length a))); [|lia].
    destruct (swp_ok key a (Z.of_nat (length l)) (Z.of_nat (length a) - 1) ltac:(lia) ltac:(lia)) as (b & -> & Lb & Pb & Gb). cbn [obind].
    exists (removelast b). split; [reflexivity|].
    assert (Nb : b <> []) by (intros ->; cbn in Lb; lia).
    assert (E := app_removelast_last key Nb).
    assert (Ev : last b key = v).
    { rewrite E in Lb. rewrite app_length in Lb. cbn [length] in Lb. specialize (Gb (Z.of_nat (length a) - 1) ltac:(lia)). rewrite Z.eqb_refl, Nat2Z.id in Gb.
      unfold a in Gb at 2. rewrite nth_middle in Gb. rewrite <- Gb. rewrite E at 2. rewrite app_nth2 by lia.
      replace (Z.to_nat (Z.of_nat (length a) - 1) - length (removelast b))%nat with 0%nat by lia. reflexivity. }
    split.
    + rewrite E, Ev in Pb. rewrite <- (app_nil_r (removelast b)). apply (Permutation_app_inv l r (removelast b) [] v). exact Pb.
    + intros k Hk. assert (Lr : length (removelast b) = (length a - 1)%nat) by (rewrite E in Lb; rewrite app_length in Lb; cbn [length] in Lb; lia).
      rewrite (nth_error_nth' (removelast b) key) by lia. rewrite (nth_error_nth' l key) by exact Hk. f_equal.
      specialize (Gb (Z.of_nat k) ltac:(lia)). rewrite Nat2Z.id in Gb.
      destruct (Z.eqb_spec (Z.of_nat k) (Z.of_nat (length a) - 1)); [lia|]. destruct (Z.eqb_spec (Z.of_nat k) (Z.of_nat (length l))); [lia|].
      rewrite E in Gb at 1. rewrite app_nth1 in Gb by lia. rewrite Gb. unfold a. now rewrite app_nth1.
Qed.
Print Assumptions C145_remove.

(** The comparison of points the convex hull sorts with is a strict weak order, so sorting them works: by y, then x, then z. *)
Theorem C145_points : forall (ps : list point32) (fuel : nat), (length ps < fuel)%nat ->
  exists ps', quick_sort point_cmp fuel ps = Ok ps' /\ Permutation ps ps' /\
    forall l p m q r, ps' = l ++ p :: m ++ q :: r ->
      py p < py q \/ (py p = py q /\ (px p < px q \/ (px p = px q /\ pz p <= pz q))).
Proof.
  intros ps fuel Hf.
  assert (F : forall p q, point_cmp p q = true <-> py p < py q \/ (py p = py q /\ (px p < px q \/ (px p = px q /\ pz p < pz q)))).
  { intros p q. unfold point_cmp. rewrite orb_true_iff, andb_true_iff, orb_true_iff, andb_true_iff, !Z.ltb_lt, !Z.eqb_eq. tauto. }
  assert (F' : forall p q, point_cmp p q = false <-> ~ (py p < py q \/ (py p = py q /\ (px p < px q \/ (px p = px q /\ pz p < pz q))))).
  { intros p q. rewrite <- F. destruct (point_cmp p q); split; intros H; try discriminate; try reflexivity; exfalso; now apply H. }
  destruct (C145_quick point32 point_cmp ps fuel) as (ps' & E & P & S1); [|exact Hf|].
  - split.
    + intros p q H. apply F'. apply F in H. lia.
    + intros p q r H1 H2. apply F'. apply F' in H1, H2. lia.
  - exists ps'. split; [exact E|]. split; [exact P|]. intros l p m q r Hl. specialize (S1 l p m q r Hl). apply F' in S1. lia.
Qed.
Print Assumptions C145_points.

Definition ex_points : list point32 := [P32 3 1 0 0; P32 0 0 5 1; P32 3 1 0 2; P32 (-2) 1 7 3; P32 0 0 (-5) 4].
Example C145_ex : map pindex (match quick_sort point_cmp 6 ex_points with Ok a => a | _ => [] end) = [4; 1; 3; 0; 2] /\
  heap_sort Z.ltb 20 [5; 3; 9; 3; -1; 7] = Ok [-1; 3; 3; 5; 7; 9] /\
  find_binary Z.ltb 7 [-1; 3; 3; 5; 7; 9] 7 = Ok 4 /\ find_binary Z.ltb 7 [-1; 3; 3; 5; 7; 9] 4 = Ok 6 /\
  remove Z.eqb 7 [5; 3; 9; 3; 7] 3 = Ok [5; 7; 9; 3].
Proof. vm_compute. split; [reflexivity|]. split; [reflexivity|]. split; [reflexivity|]. split; reflexivity. Qed.
Example C145_order_ex : strict_weak Z.ltb /\ sorted Z.ltb [-1; 3; 3].
Proof.
  split; [split|].
  - intros x y H. apply Z.ltb_lt in H. apply Z.ltb_ge. lia.
  - intros x y z H1 H2. apply Z.ltb_ge in H1, H2. apply Z.ltb_ge. lia.
  - apply (sorted_in_sorted Z.ltb 0). intros p q Hp Hpq Hq. cbn [length] in Hq.
    assert (p = 0 \/ p = 1) as [-> | ->] by lia; (assert (q = 1 \/ q = 2) as [-> | ->] by lia); try lia; reflexivity.
Qed.

(** With "not greater" for "less", which gives the same order, quickSort reads past the end of the array. *)
Theorem C145_nonstrict_refuted : exists (le : Z -> Z -> bool) (a : list Z),
  (forall x y, le x y = true <-> x <= y) /\ forall fuel, (length a < fuel)%nat -> quick_sort le fuel a = Undef.
Proof.
  exists Z.leb, [1; 1]. split; [apply Z.leb_le|]. intros fuel Hf. cbn [length] in Hf.
  destruct fuel as [|[|[|f]]]; try lia. reflexivity.
Qed.
Print Assumptions C145_nonstrict_refuted.
