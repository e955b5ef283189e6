(** * C57: reading and writing a subset of the joints *)
From Coq Require Import List Bool Arith Lia.
From Verif Require Import ArrayModel TrajoptModel ArrayProps.
Import ListNotations.

(** joint [s] is at position [k] (the first one, if the name occurs twice) *)
Definition first_at (names : list nat) (k s : nat) : Prop :=
  nth_error names k = Some s /\ forall i, i < k -> nth_error names i <> Some s.

Lemma find_some names s k : find_name names s = Some k <-> first_at names k s.
Proof.
  revert k; induction names as [|m names IH]; intros k; cbn.
  - split; [discriminate|]. intros [H _]. destruct k; discriminate.
  - destruct (Nat.eqb_spec m s) as [->|Hne].
    + split.
      * intros [= <-]. split; [reflexivity|]. lia.
      * intros [_ H]. destruct k; [reflexivity|]. exfalso. apply (H 0); [lia|reflexivity].
    + destruct (find_name names s) as [j|] eqn:E; cbn.
      * split.
        -- intros [= <-]. destruct (proj1 (IH j) eq_refl) as [H1 H2]. split; [exact H1|].
           intros [|i] Hi; cbn; [congruence|]. apply H2. lia.
        -- intros [H1 H2]. destruct k; cbn in H1; [congruence|]. f_equal. f_equal.
           assert (Some j = Some k) as [= ->]; [|reflexivity]. apply IH. split; [exact H1|].
           intros i Hi. apply (H2 (S i)). lia.
      * split; [discriminate|]. intros [H1 H2]. destruct k; cbn in H1; [congruence|].
        assert (@None nat = Some k); [|discriminate]. apply IH. split; [exact H1|].
        intros i Hi. apply (H2 (S i)). lia.
Qed.
Lemma find_none names s : find_name names s = None <-> ~ In s names.
Proof.
  induction names as [|m names IH]; cbn; [intuition|].
  destruct (Nat.eqb_spec m s) as [->|Hne].
  - split; [discriminate|]. intros H. exfalso. auto.
  - destruct (find_name names s); cbn.
    + split; [discriminate|]. intros H. exfalso. destruct IH as [_ IH]. discriminate IH. auto.
    + split; auto. intros _ [?|?]; [congruence|]. apply IH; auto.
Qed.
Lemma find_in names s : In s names -> exists k, find_name names s = Some k.
Proof. intros H. destruct (find_name names s) eqn:E; eauto. apply find_none in E. contradiction. Qed.
Lemma first_lt names k s : first_at names k s -> k < length names.
Proof. intros [H _]. apply nth_error_Some. congruence. Qed.
Lemma first_inj names k s s' : first_at names k s -> first_at names k s' -> s = s'.
Proof. intros [H _] [H' _]. congruence. Qed.
Lemma first_fun names k k' s : first_at names k s -> first_at names k' s -> k = k'.
Proof. intros H H'. apply find_some in H. apply find_some in H'. congruence. Qed.

Section C57.
  Context {A : Type}.
  Implicit Types vals svals new r : list A.

  Lemma get_loop_ok names vals snames : length vals = length names -> incl snames names ->
    exists r, get_loop names vals snames = Done (Some r) /\ length r = length snames /\
      forall i s k, nth_error snames i = Some s -> first_at names k s -> nth_error r i = nth_error vals k.
  Proof.
    intros Hl. induction snames as [|s snames IH]; intros Hin; cbn.
    - exists []. split; [reflexivity|]. split; [reflexivity|]. intros [|i]; discriminate.
    - destruct (find_in names s) as (k & Hk); [apply Hin; left; reflexivity|]. rewrite Hk. apply find_some in Hk.
      destruct (nth_error vals k) as [v|] eqn:Ev.
      2:{ apply nth_error_None in Ev. apply first_lt in Hk. lia. }
      destruct IH as (r & Er & Lr & Vr); [intros x Hx; apply Hin; right; exact Hx|].
      rewrite Er. cbn. exists (v :: r). split; [reflexivity|]. split; [cbn; lia|].
      intros [|i] s' k'; cbn; [|apply Vr]. intros [= <-] Hk'. rewrite (first_fun _ _ _ _ Hk' Hk). auto.
  Qed.
  Lemma get_loop_no names vals snames : length vals = length names -> ~ incl snames names -> get_loop names vals snames = Done None.
  Proof.
    intros Hl. induction snames as [|s snames IH]; intros Hn; cbn.
    - exfalso. apply Hn. intros x [].
    - destruct (find_name names s) as [k|] eqn:Hk; [|reflexivity].
      assert (Hk' := Hk). apply find_some in Hk'.
      destruct (nth_error vals k) as [v|] eqn:Ev.
      2:{ apply nth_error_None in Ev. apply first_lt in Hk'. lia. }
      rewrite IH; [reflexivity|]. intros Hi. apply Hn. intros x [<-|Hx]; auto.
      destruct Hk' as [Hk' _]. eapply nth_error_In. exact Hk'.
  Qed.

  Lemma put_nth_error (l : list A) k v i : k < length l -> nth_error (put l k v) i = if i =? k then Some v else nth_error l i.
  Proof. apply put_nth. Qed.
  Lemma update_loop_ok names snames : forall svals new, length new = length names -> length svals = length snames -> incl snames names ->
    exists r, update_loop names snames svals new = Done (true, r) /\ length r = length new /\
      (forall k, (forall s, In s snames -> ~ first_at names k s) -> nth_error r k = nth_error new k) /\
      (forall i s k, nth_error snames i = Some s -> (forall i', i < i' -> nth_error snames i' <> Some s) -> first_at names k s -> nth_error r k = nth_error svals i).
  Proof.
    induction snames as [|s snames IH]; intros svals new Hn Hs Hin; cbn [update_loop].
    - exists new. split; [reflexivity|]. split; [reflexivity|]. split; [auto|]. intros [|i]; discriminate.
    - destruct (find_in names s) as (k & Hk); [apply Hin; left; reflexivity|]. rewrite Hk. apply find_some in Hk.
      destruct svals as [|v svals]; [discriminate|].
      assert (Hlt : k < length new) by (rewrite Hn; eapply first_lt; eauto).
      destruct (Nat.ltb_spec k (length new)); [|lia].
      destruct (IH svals (put new k v)) as (r & Er & Lr & Or & Vr).
      { rewrite put_length. exact Hn. } { cbn in Hs. lia. } { intros x Hx; apply Hin; right; exact Hx. }
      exists r. split; [exact Er|]. rewrite put_length in Lr. split; [exact Lr|]. split.
      + intros k' H'. rewrite Or by (intros s' Hs'; apply H'; right; exact Hs').
        rewrite put_nth_error by exact Hlt. destruct (Nat.eqb_spec k' k) as [->|]; [|reflexivity].
        exfalso. apply (H' s); [left; reflexivity|exact Hk].
      + intros [|i] s' k'; cbn.
        * intros [= <-] Hlast Hk'. rewrite (first_fun _ _ _ _ Hk' Hk). rewrite Or.
          2:{ intros s' Hs' Hf. assert (s' = s) as -> by (eapply first_inj; eauto).
              apply In_nth_error in Hs'. destruct Hs' as (i' & Hi'). apply (Hlast (S i')); [lia|exact Hi']. }
          rewrite put_nth_error by exact Hlt. rewrite Nat.eqb_refl. reflexivity.
        * intros Hi Hlast Hk'. apply Vr with (s := s'); auto. intros i' Hi'. apply (Hlast (S i')). lia.
  Qed.
  Lemma update_loop_no names snames : forall svals new, length new = length names -> length svals = length snames -> ~ incl snames names ->
    exists r, update_loop names snames svals new = Done (false, r) /\ length r = length new.
  Proof.
    induction snames as [|s snames IH]; intros svals new Hn Hs Hin; cbn [update_loop].
    - exfalso. apply Hin. intros x [].
    - destruct (find_name names s) as [k|] eqn:Hk; [|eauto].
      assert (Hk' := Hk). apply find_some in Hk'.
      destruct svals as [|v svals]; [discriminate|].
      assert (Hlt : k < length new) by (rewrite Hn; eapply first_lt; eauto).
      destruct (Nat.ltb_spec k (length new)); [|lia].
      destruct (IH svals (put new k v)) as (r & Er & Lr).
      { rewrite put_length. exact Hn. } { cbn in Hs. lia. }
      { intros Hi. apply Hin. intros x [<-|Hx]; auto. destruct Hk' as [Hk' _]. eapply nth_error_In. exact Hk'. }
      rewrite put_length in Lr. eauto.
  Qed.
End C57.

(** C57: getSubset reads each joint's value, and refuses exactly when a name is unknown, leaving its output alone *)
Theorem C57_get : forall {A : Type} (names : list nat) (vals : list A) (snames : list nat) (out : list A),
  length vals = length names -> length out = length snames ->
  (incl snames names ->
     exists r, get_subset names vals snames out = Done (true, r) /\ length r = length snames /\
     forall i s k, nth_error snames i = Some s -> first_at names k s -> nth_error r i = nth_error vals k) /\
  (~ incl snames names -> get_subset names vals snames out = Done (false, out)).
Proof.
  intros A names vals snames out Hl Ho. unfold get_subset. split; intros Hi.
  - destruct (get_loop_ok names vals snames Hl Hi) as (r & E & L & V). rewrite E. cbn. rewrite Ho, L, Nat.eqb_refl. eauto.
  - rewrite (get_loop_no names vals snames Hl Hi). reflexivity.
Qed.
Print Assumptions C57_get.

(** C57: updateFromSubset writes the joints of the subset (the last value given for one) and no other; it refuses
    exactly when a name is unknown *)
Theorem C57_update : forall {A : Type} (names : list nat) (vals : list A) (snames : list nat) (svals new : list A),
  length vals = length names -> length new = length names -> length svals = length snames ->
  (incl snames names ->
     exists r, update_from_subset names vals snames svals new = Done (true, r) /\ length r = length names /\
     (forall k, (forall s, In s snames -> ~ first_at names k s) -> nth_error r k = nth_error vals k) /\
     (forall i s k, nth_error snames i = Some s -> (forall i', i < i' -> nth_error snames i' <> Some s) -> first_at names k s ->
        nth_error r k = nth_error svals i)) /\
  (~ incl snames names -> exists r, update_from_subset names vals snames svals new = Done (false, r)).
Proof.
  intros A names vals snames svals new Hl Hn Hs. unfold update_from_subset.
  replace (length new =? length vals) with true by (symmetry; apply Nat.eqb_eq; congruence). split; intros Hi.
  - destruct (update_loop_ok names snames svals vals) as (r & E & L & O & V); auto. exists r. rewrite L. auto.
  - destruct (update_loop_no names snames svals vals) as (r & E & L); eauto.
Qed.
Print Assumptions C57_update.

Lemma list_eq {A} (l l' : list A) : (forall i, nth_error l i = nth_error l' i) -> l = l'.
Proof.
  revert l'; induction l as [|a l IH]; intros [|a' l'] H; auto.
  - specialize (H 0). discriminate.
  - specialize (H 0). discriminate.
  - f_equal; [specialize (H 0); cbn in H; congruence|]. apply IH. intros i. apply (H (S i)).
Qed.
Lemma nodup_last (l : list nat) i s : NoDup l -> nth_error l i = Some s -> forall i', i < i' -> nth_error l i' <> Some s.
Proof.
  intros Hd Hi i' Hlt Hi'. assert (i < length l) by (apply nth_error_Some; congruence).
  assert (i = i'); [|lia]. eapply NoDup_nth_error; eauto. congruence.
Qed.

(** C57: writing what was read changes nothing, and, for distinct names, reading gives what was written *)
Theorem C57_inverse : forall {A : Type} (names : list nat) (vals : list A) (snames : list nat),
  length vals = length names -> incl snames names ->
  (forall out new, length out = length snames -> length new = length names ->
     exists r, get_subset names vals snames out = Done (true, r) /\ update_from_subset names vals snames r new = Done (true, vals)) /\
  (NoDup snames -> forall svals new out, length svals = length snames -> length new = length names -> length out = length snames ->
     exists r, update_from_subset names vals snames svals new = Done (true, r) /\ get_subset names r snames out = Done (true, svals)).
Proof.
  intros A names vals snames Hl Hi. split.
  - intros out new Ho Hn. destruct (proj1 (C57_get names vals snames out Hl Ho) Hi) as (r & E & L & V). exists r. split; [exact E|].
    (* generalise: writing values read from [vals] keeps a vector that agrees with [vals] *)
    unfold update_from_subset. replace (length new =? length vals) with true by (symmetry; apply Nat.eqb_eq; congruence).
    clear E out Ho new Hn.
    assert (forall sn sv, length sv = length sn -> incl sn names ->
              (forall i s k, nth_error sn i = Some s -> first_at names k s -> nth_error sv i = nth_error vals k) ->
              update_loop names sn sv vals = Done (true, vals)) as G; [|apply G; auto].
    clear Hi L V r snames.
    induction sn as [|s sn IH]; intros sv Hs Hin Hv; cbn [update_loop]; [reflexivity|].
    destruct (find_in names s) as (k & Hk); [apply Hin; left; reflexivity|]. rewrite Hk. apply find_some in Hk.
    destruct sv as [|v sv]; [discriminate|]. assert (Hlt := first_lt _ _ _ Hk).
    destruct (Nat.ltb_spec k (length vals)); [|lia].
    assert (put vals k v = vals) as ->.
    { apply list_eq. intros i. rewrite put_nth by lia. destruct (Nat.eqb_spec i k) as [->|]; [|reflexivity].
      specialize (Hv 0 s k eq_refl Hk). cbn in Hv. exact Hv. }
    apply IH; [cbn in Hs; lia| |]. { intros x Hx; apply Hin; right; exact Hx. }
    intros i s' k' Hi Hk'. apply (Hv (S i) s' k'); auto.
  - intros Hd svals new out Hs Hn Ho. destruct (proj1 (C57_update names vals snames svals new Hl Hn Hs) Hi) as (r & E & L & O & V).
    exists r. split; [exact E|]. destruct (proj1 (C57_get names r snames out L Ho) Hi) as (r' & E' & L' & V'). rewrite E'. f_equal. f_equal.
    apply list_eq. intros i. destruct (nth_error snames i) as [s|] eqn:Es.
    + destruct (find_in names s) as (k & Hk). { apply Hi. eapply nth_error_In; eauto. } apply find_some in Hk.
      rewrite (V' i s k Es Hk). apply (V i s k Es); auto. apply nodup_last; auto.
    + apply nth_error_None in Es. transitivity (@None A); [|symmetry]; apply nth_error_None; lia.
Qed.
Print Assumptions C57_inverse.

(** C57: with a repeated name only the last value survives *)
Theorem C57_repeated_refuted : exists (names snames : list nat) (vals svals new out r s : list nat),
  incl snames names /\ length vals = length names /\ length svals = length snames /\ length new = length names /\ length out = length snames /\
  update_from_subset names vals snames svals new = Done (true, r) /\ get_subset names r snames out = Done (true, s) /\ s <> svals.
Proof.
  exists [1; 2], [1; 1], [10; 20], [11; 12], [0; 0], [0; 0], [12; 20], [12; 12].
  split; [intros x Hx; cbn in *; intuition|]. do 4 (split; [reflexivity|]). split; [reflexivity|]. split; [reflexivity|]. discriminate.
Qed.
Print Assumptions C57_repeated_refuted.

(** a refused update has already overwritten its output, and with a mixture of old and new values *)
Theorem C57_refused_update_refuted : exists (names snames : list nat) (vals svals new r : list nat),
  ~ incl snames names /\ length vals = length names /\ length svals = length snames /\ length new = length names /\
  update_from_subset names vals snames svals new = Done (false, r) /\ r <> new /\ r <> vals.
Proof.
  exists [1; 2], [1; 3], [10; 20], [11; 12], [0; 0], [11; 20].
  split. { intros H. specialize (H 3 ltac:(cbn; auto)). cbn in H. intuition lia. }
  do 3 (split; [reflexivity|]). split; [reflexivity|]. split; discriminate.
Qed.
Print Assumptions C57_refused_update_refuted.

Lemma found_in names s : found names s = true <-> In s names.
Proof.
  unfold found. destruct (find_name names s) eqn:E.
  - split; auto. intros _. apply find_some in E. destruct E as [E _]. eapply nth_error_In; eauto.
  - split; [discriminate|]. intros H. apply find_none in E. contradiction.
Qed.
(** isSuperset accepts exactly the strictly longer lists that contain the names, and then getSubset succeeds *)
Theorem C57_superset : forall (subset superset : list nat),
  (is_superset subset superset = true <-> incl subset superset /\ length subset < length superset) /\
  (is_superset subset superset = true -> forall {A} (vals out : list A), length vals = length superset -> length out = length subset ->
     exists r, get_subset superset vals subset out = Done (true, r)).
Proof.
  intros subset superset.
  assert (is_superset subset superset = true <-> incl subset superset /\ length subset < length superset) as E.
  { unfold is_superset. rewrite andb_true_iff, forallb_forall, Nat.ltb_lt. split; intros [H1 H2]; split; auto.
    - intros x Hx. apply found_in. auto.
    - intros x Hx. apply found_in. auto. }
  split; [exact E|]. intros H A vals out Hv Ho. apply E in H. destruct H as [Hi _].
  destruct (proj1 (C57_get superset vals subset out Hv Ho) Hi) as (r & Er & _). eauto.
Qed.
Print Assumptions C57_superset.
(** isSuperset refuses lists with the same names, although getSubset accepts them *)
Theorem C57_superset_refuted : exists (subset superset : list nat) (vals out r : list nat),
  incl subset superset /\ is_superset subset superset = false /\ get_subset superset vals subset out = Done (true, r).
Proof. exists [2; 1], [1; 2], [10; 20], [0; 0], [20; 10]. split; [intros x Hx; cbn in *; intuition|]. split; reflexivity. Qed.
Print Assumptions C57_superset_refuted.

Example C57_ex : let names := [5; 6; 7] in let vals := [50; 60; 70] in let snames := [7; 5] in
  incl snames names /\ NoDup snames /\ get_subset names vals snames [0; 0] = Done (true, [70; 50]) /\
  update_from_subset names vals snames [71; 51] [0; 0; 0] = Done (true, [51; 60; 71]) /\ first_at names 2 7 /\
  ~ incl [7; 8] names /\ get_subset names vals [7; 8] [0; 0] = Done (false, [0; 0]).
Proof.
  cbn zeta. split; [intros x Hx; cbn in *; intuition|]. split. { repeat constructor; cbn; intuition lia. }
  split; [reflexivity|]. split; [reflexivity|]. split.
  { split; [reflexivity|]. intros [|[|i]] Hi; cbn; try discriminate; lia. }
  split; [|reflexivity]. intros H. specialize (H 8 ltac:(cbn; auto)). cbn in H. intuition lia.
Qed.
