(** * C155: the convex hull returns every face once *)
From Coq Require Import List Arith Bool ZArith Lia.
From Verif Require Import Common HEdgeModel HEdgeSpec HEdgeProofs HPartSpec HPartProofs HCopyModel HCopySpec HCopyProofs HFaceModel HFaceSpec HFaceProofs.
Import ListNotations.

(** For every hull of finitely many vertices with its edges in order, filling the array of faces ends;
    its entries are edges of the result, and every edge of the result is on the face of exactly one
    entry. *)
Theorem C155_faces h f v0 n : whole h f -> (forall u, n <= u -> f u = []) ->
  exists fuel inner st fuel2 inner2 fs, copy_hull fuel inner h v0 = Ok st /\ copy_faces fuel2 inner2 h st = Ok fs /\
    (forall a, In a fs -> a < osize st) /\
    forall i, i < osize st -> exists k, (exists a, nth_error fs k = Some a /\ on_face st a i) /\
      forall k' a', nth_error fs k' = Some a' -> on_face st a' i -> k' = k.
Proof.
  intros W hn. destruct (start_inv h f v0) as (I0 & z0).
  destruct (loop_ok h f v0 n W hn (S (edges n f)) (le_n _) (S n) _ 0 I0) as (st & e & I & G & D); [intros i u x hi; lia|lia|].
  pose proof I as (A & B & C & _). pose proof (proj1 G v0 0 z0) as z. pose proof (copies_ok h f v0 st W I D) as (c1 & c2 & c3 & c4).
  assert (CL : forall u x t, In u (olds st) -> In x (f u) -> tg h x = Some t -> In t (olds st)).
  { intros u x t hu hx ht. destruct (closed_ok h f v0 st I D) with (u := t) as (i & hi); [congruence| |].
    - eapply reach_step; [exact (B u hu)|exact hx|exact ht].
    - apply A in hi. now apply nth_error_In in hi. }
  assert (AC : forall x, has f (olds st) x -> exists i, ec st x = Some i).
  { intros x (u & hu & hx). apply In_nth_error in hu. destruct hu as (iu & hu).
    destruct (D iu u x) as (p & i & j & _ & k & _); [apply nth_error_Some; congruence|exact hu|exact hx|eauto]. }
  set (m := length (flat_map f (olds st))).
  destruct (facesloop_ok h f (olds st) W CL (ec st) m m (le_n _) (le_n _) (olds st) (ec st) [] []
              (incl_refl _) (faces_start h f (olds st) (ec st) AC)) as (fs & es & ec1 & b1 & (b2 & b3 & b4 & _) & _ & b5).
  exists (S n), (S (edges n f)), st, m, m, fs. split; [exact e|]. split; [exact b1|]. change (c0 (ec st)) with (at_ st) in b2.
  assert (FN : forall x, has f (olds st) x -> next_edge_of_face st (at_ st x) = Some (at_ st (phi h x))).
  { intros x (u & hu & hx). apply In_nth_error in hu. destruct hu as (iu & hu).
    destruct (c4 iu u x hu hx) as (r & t & p & q & it & k1 & k2 & k3 & k4 & _ & _ & _ & _ & _ & k5). unfold phi. now rewrite k1, k4. }
  assert (OF : forall a i, has f (olds st) a -> on_face st (at_ st a) i <-> exists x, orb h a x /\ i = at_ st x).
  { intros a i ha. split.
    - intros q. induction q as [|i j q (x & (k & hx) & ->) hj]; [exists a; split; [exists 0; reflexivity|reflexivity]|].
      assert (hxx : has f (olds st) x) by (rewrite <- hx; now apply it_has). rewrite (FN x hxx) in hj. injection hj as <-.
      exists (phi h x). split; [exists (S k); now rewrite it_S, hx|reflexivity].
    - intros (x & (k & <-) & ->). induction k as [|k ih]; [constructor|]. eapply on_next; [exact ih|]. rewrite FN by now apply it_has. reflexivity. }
  split.
  - intros a ha. rewrite b2 in ha. apply in_map_iff in ha. destruct ha as (x & <- & hx). destruct (b3 x hx) as (u & hu & hx'). exact (c1 u x hu hx').
  - intros i hi. destruct (c3 i hi) as (u & x & hu & hx & <-). destruct (b5 u x hu hx) as (a & ha & q).
    pose proof (b3 a ha) as hha. apply In_nth_error in ha. destruct ha as (k & ha). exists k. split.
    + exists (at_ st a). split; [rewrite b2; now apply map_nth_error|]. apply OF; [exact hha|]. eauto.
    + intros k' a' h1 h2. rewrite b2 in h1. rewrite nth_error_map in h1. destruct (nth_error es k') as [y|] eqn:ey; [|discriminate h1].
      injection h1 as <-. assert (hy : has f (olds st) y) by (apply b3; exact (nth_error_In _ _ ey)). apply OF in h2; [|exact hy].
      destruct h2 as (x' & q' & ex). assert (hx' : has f (olds st) x') by (destruct q' as (j & <-); now apply it_has).
      assert (x' = x) as ->. { destruct hx' as (u' & hu' & hx'). symmetry. exact (c2 u x u' x' hu hx hu' hx' ex). }
      eapply (apart_eq h f (olds st) W CL es b3 b4); [exact ey|exact ha|]. eapply orb_trans; [exact q'|].
      eapply orb_sym; eassumption.
Qed.
Print Assumptions C155_faces.

(** A triangle has its two sides as faces. *)
Definition C155_triangle : hull :=
  Hull (fun x => match x with
                 | 0 => Some (E (Some 5) (Some 5) (Some 1) (Some 1))
                 | 1 => Some (E (Some 2) (Some 2) (Some 0) (Some 0))
                 | 2 => Some (E (Some 1) (Some 1) (Some 3) (Some 2))
                 | 3 => Some (E (Some 4) (Some 4) (Some 2) (Some 1))
                 | 4 => Some (E (Some 3) (Some 3) (Some 5) (Some 0))
                 | 5 => Some (E (Some 0) (Some 0) (Some 4) (Some 2))
                 | _ => None
                 end)
       (fun v => match v with 0 => Some 0 | 1 => Some 2 | 2 => Some 3 | _ => None end).
Definition C155_around (v : nat) : list nat := match v with 0 => [0; 5] | 1 => [1; 2] | 2 => [3; 4] | _ => [] end.
Example C155_triangle_whole : whole C155_triangle C155_around /\ forall u, 3 <= u -> C155_around u = [].
Proof.
  split; [|intros [|[|[|u]]] hu; try lia; reflexivity]. split; [|split; [|split; [|split]]].
  - intros [|[|[|v]]]; cbn; auto 10.
  - intros [|[|[|v]]]; cbn; auto 10.
  - intros [|[|[|v]]]; cbn; repeat constructor; cbn; intuition discriminate.
  - intros [|[|[|v]]] [|[|[|w]]] e; cbn; intuition (try lia); subst; discriminate.
  - intros [|[|[|v]]] e; cbn [C155_around In]; intros h.
    + destruct h as [<-|[<-|[]]]; [exists 1, 1|exists 4, 2]; cbn; auto 10.
    + destruct h as [<-|[<-|[]]]; [exists 0, 0|exists 3, 2]; cbn; auto 10.
    + destruct h as [<-|[<-|[]]]; [exists 2, 1|exists 5, 0]; cbn; auto 10.
    + destruct h.
Qed.
Example C155_triangle_faces :
  match copy_hull 9 9 C155_triangle 0 with
  | Ok st => copy_faces 9 9 C155_triangle st = Ok [0; 2] /\ map (next_edge_of_face st) [0; 1; 2; 3; 4; 5] = [Some 4; Some 2; Some 5; Some 0; Some 3; Some 1]
  | _ => False
  end.
Proof. vm_compute. split; reflexivity. Qed.
