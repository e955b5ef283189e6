(** * Proofs about the integer grid *)
From Coq Require Import List ZArith Reals Lra Lia Bool.
From Verif Require Import Common Num NumFacts GridModel GridSpec.
Import ListNotations.

(** ** Conversion *)
Local Open Scope R_scope.
Lemma Int_part_bounds r : IZR (Int_part r) <= r < IZR (Int_part r) + 1.
Proof. destruct (base_Int_part r) as [h1 h2]. split; lra. Qed.
Lemma trunc_pos r : 0 <= r -> 0 <= IZR (truncR r) <= r /\ r < IZR (truncR r) + 1.
Proof.
  intros h. unfold truncR. destruct (Rltb_spec r 0); [lra|]. pose proof (Int_part_bounds r) as q.
  split; [|lra]. split; [|lra]. apply IZR_le. assert (-1 < Int_part r)%Z; [|lia]. apply lt_IZR. lra.
Qed.
Lemma trunc_neg r : r <= 0 -> r <= IZR (truncR r) <= 0 /\ IZR (truncR r) - 1 < r.
Proof.
  intros h. unfold truncR. destruct (Rltb_spec r 0) as [g|g].
  - rewrite opp_IZR. pose proof (Int_part_bounds (- r)) as q.
    split; [|lra]. split; [lra|]. assert (0 <= IZR (Int_part (- r))); [|lra].
    apply IZR_le. assert (-1 < Int_part (- r))%Z; [|lia]. apply lt_IZR. lra.
  - replace r with 0 by lra. pose proof (Int_part_bounds 0) as q.
    assert (Int_part 0 = 0%Z) as ->; [|lra].
    assert (-1 < Int_part 0)%Z by (apply lt_IZR; lra). assert (Int_part 0 < 1)%Z by (apply lt_IZR; lra). lia.
Qed.
Lemma trunc_box r n : - IZR n <= r <= IZR n -> (- n <= truncR r <= n)%Z.
Proof.
  intros h. destruct (Rle_lt_dec 0 r) as [g|g].
  - destruct (trunc_pos r g) as [q _]. split; apply le_IZR; rewrite ?opp_IZR; lra.
  - destruct (trunc_neg r) as [q _]; [lra|]. split; apply le_IZR; rewrite ?opp_IZR; lra.
Qed.

(** ** Corners *)
Definition lower (x : R) (l : list R) : R := fold_left (fun x y => if Rltb y x then y else x) l x.
Definition upper (x : R) (l : list R) : R := fold_left (fun x y => if Rltb x y then y else x) l x.
Lemma lower_ok l : forall x, lower x l <= x /\ (forall y, In y l -> lower x l <= y) /\ (lower x l = x \/ In (lower x l) l).
Proof.
  induction l as [|z l ih]; intros x; cbn [lower fold_left].
  - split; [lra|]. split; [intros y []|]. now left.
  - fold (lower (if Rltb z x then z else x) l). destruct (ih (if Rltb z x then z else x)) as (h1 & h2 & h3).
    destruct (Rltb_spec z x) as [g|g].
    + split; [lra|]. split; [intros y [<-|hy]; [exact h1|auto]|]. right. destruct h3 as [->|h3]; [now left|now right].
    + split; [lra|]. split; [intros y [<-|hy]; [lra|auto]|]. destruct h3 as [->|h3]; [now left|right; now right].
Qed.
Lemma upper_ok l : forall x, x <= upper x l /\ (forall y, In y l -> y <= upper x l) /\ (upper x l = x \/ In (upper x l) l).
Proof.
  induction l as [|z l ih]; intros x; cbn [upper fold_left].
  - split; [lra|]. split; [intros y []|]. now left.
  - fold (upper (if Rltb x z then z else x) l). destruct (ih (if Rltb x z then z else x)) as (h1 & h2 & h3).
    destruct (Rltb_spec x z) as [g|g].
    + split; [lra|]. split; [intros y [<-|hy]; [exact h1|auto]|]. right. destruct h3 as [->|h3]; [now left|now right].
    + split; [lra|]. split; [intros y [<-|hy]; [lra|auto]|]. destruct h3 as [->|h3]; [now left|right; now right].
Qed.
Lemma corners_fold (ps : list (gvec R)) : forall a b,
  fold_left (fun mm p => (set_min (fst mm) p, set_max (snd mm) p)) ps (a, b) =
  (GV (lower (c0 a) (map c0 ps)) (lower (c1 a) (map c1 ps)) (lower (c2 a) (map c2 ps)),
   GV (upper (c0 b) (map c0 ps)) (upper (c1 b) (map c1 ps)) (upper (c2 b) (map c2 ps))).
Proof.
  induction ps as [|p ps ih]; intros a b; cbn [fold_left map].
  - destruct a, b. reflexivity.
  - cbn [fst snd]. rewrite ih. reflexivity.
Qed.
Definition mn (ps : list (gvec R)) (i : Z) : R := lower big (map (fun p => co p i) ps).
Definition mx (ps : list (gvec R)) (i : Z) : R := upper (- big) (map (fun p => co p i) ps).
Lemma corners_R (ps : list (gvec R)) :
  corners_of ps = (GV (mn ps 0) (mn ps 1) (mn ps 2), GV (mx ps 0) (mx ps 1) (mx ps 2)).
Proof. unfold corners_of. rewrite corners_fold. reflexivity. Qed.
Lemma mn_le ps p i : In p ps -> mn ps i <= co p i.
Proof. intros h. apply (lower_ok _ big). apply in_map_iff. eauto. Qed.
Lemma mx_ge ps p i : In p ps -> co p i <= mx ps i.
Proof. intros h. apply (upper_ok _ (- big)). apply in_map_iff. eauto. Qed.
Lemma big_val : (big : R) = 10 ^ 30.
Proof.
  unfold big. cbn [ndec R_Num]. unfold Rdec. rewrite Rmult_1_l. reflexivity.
Qed.
Lemma mn_in ps i : ps <> [] -> moderate ps -> is_axis i -> exists p, In p ps /\ co p i = mn ps i.
Proof.
  intros ne mo ai. destruct (lower_ok (map (fun p => co p i) ps) big) as (h1 & _ & h3). fold (mn ps i) in h1, h3.
  destruct h3 as [h3|h3].
  - destruct ps as [|p ps]; [contradiction|]. exists p. split; [now left|].
    pose proof (mn_le (p :: ps) p i (or_introl eq_refl)) as a. destruct (mo p i (or_introl eq_refl) ai) as [b c].
    rewrite h3 in *. rewrite big_val in *. lra.
  - apply in_map_iff in h3. destruct h3 as (p & e & hp). eauto.
Qed.
Lemma mx_in ps i : ps <> [] -> moderate ps -> is_axis i -> exists p, In p ps /\ co p i = mx ps i.
Proof.
  intros ne mo ai. destruct (upper_ok (map (fun p => co p i) ps) (- big)) as (h1 & _ & h3). fold (mx ps i) in h1, h3.
  destruct h3 as [h3|h3].
  - destruct ps as [|p ps]; [contradiction|]. exists p. split; [now left|].
    pose proof (mx_ge (p :: ps) p i (or_introl eq_refl)) as a. destruct (mo p i (or_introl eq_refl) ai) as [b c].
    rewrite h3 in *. rewrite big_val in *. lra.
  - apply in_map_iff in h3. destruct h3 as (p & e & hp). eauto.
Qed.
Definition ext ps i : R := mx ps i - mn ps i.
Lemma ext_extent ps i e : ps <> [] -> moderate ps -> is_axis i -> extent ps i e -> e = ext ps i.
Proof.
  intros ne mo ai (h1 & p & q & hp & hq & h2). destruct (mn_in ps i ne mo ai) as (a & ha & ea).
  destruct (mx_in ps i ne mo ai) as (b & hb & eb). pose proof (h1 b a hb ha). unfold ext.
  pose proof (mn_le ps q i hq). pose proof (mx_ge ps p i hp). lra.
Qed.
Lemma ext_nonneg ps i : ps <> [] -> 0 <= ext ps i.
Proof.
  intros ne. destruct ps as [|p ps]; [contradiction|]. unfold ext.
  pose proof (mn_le (p :: ps) p i (or_introl eq_refl)). pose proof (mx_ge (p :: ps) p i (or_introl eq_refl)). lra.
Qed.

(** ** The frame *)
Definition sgn_of (d x n : Z) : R := if Z.eqb (Z.modulo (d + 1) 3) x then 1 else -1.
Definition perm_of (d x n : Z) : Prop :=
  (d = 0 /\ x = 1 /\ n = 2)%Z \/ (d = 1 /\ x = 2 /\ n = 0)%Z \/ (d = 2 /\ x = 0 /\ n = 1)%Z \/
  (d = 1 /\ x = 0 /\ n = 2)%Z \/ (d = 0 /\ x = 2 /\ n = 1)%Z \/ (d = 2 /\ x = 1 /\ n = 0)%Z.
Definition kinv (s e : R) : R := if Reqb e 0 then 0 else s * (10216 / e).
Lemma inverse_one s e : s = 1 \/ s = -1 -> (if negb (Reqb (s * (e / 10216)) 0) then 1 / (s * (e / 10216)) else s * (e / 10216)) = kinv s e.
Proof.
  intros hs. unfold kinv. destruct (Reqb_spec e 0) as [->|n].
  - replace (s * (0 / 10216)) with 0 by (unfold Rdiv; ring). destruct (Reqb_spec 0 0); [reflexivity|lra].
  - assert (s * (e / 10216) <> 0). { destruct hs as [-> | ->]; intros q; apply n; lra. }
    destruct (Reqb_spec (s * (e / 10216)) 0); [contradiction|]. cbn [negb]. destruct hs as [-> | ->]; field; exact n.
Qed.
Lemma frame_R ps : exists d x n, perm_of d x n /\
  ext ps n <= ext ps d <= ext ps x /\
  let s := sgn_of d x n in
  frame_of ps = Frame (GV (s * (ext ps 0 / 10216)) (s * (ext ps 1 / 10216)) (s * (ext ps 2 / 10216)))
                      (GV (kinv s (ext ps 0)) (kinv s (ext ps 1)) (kinv s (ext ps 2)))
                      (GV ((mn ps 0 + mx ps 0) / 2) ((mn ps 1 + mx ps 1) / 2) ((mn ps 2 + mx ps 2) / 2)) d x n.
Proof.
  assert (C : forall d x n, perm_of d x n -> (3 - x - n)%Z = d -> n <> x ->
    max_axis (GV (ext ps 0) (ext ps 1) (ext ps 2)) = x -> min_axis (GV (ext ps 0) (ext ps 1) (ext ps 2)) = n ->
    let s := sgn_of d x n in
    frame_of ps = Frame (GV (s * (ext ps 0 / 10216)) (s * (ext ps 1 / 10216)) (s * (ext ps 2 / 10216)))
                      (GV (kinv s (ext ps 0)) (kinv s (ext ps 1)) (kinv s (ext ps 2)))
                      (GV ((mn ps 0 + mx ps 0) / 2) ((mn ps 1 + mx ps 1) / 2) ((mn ps 2 + mx ps 2) / 2)) d x n).
  { intros d x n hp hd nx hx hn s. unfold frame_of. rewrite corners_R.
    cbv beta iota zeta.
    change (gmap2 (fun a b : R => nsub a b) (GV (mx ps 0) (mx ps 1) (mx ps 2)) (GV (mn ps 0) (mn ps 1) (mn ps 2)))
      with (GV (ext ps 0) (ext ps 1) (ext ps 2)). rewrite hx, hn.
    destruct (Z.eqb_spec n x) as [e|_]; [contradiction|]. rewrite hd.
    assert (SC : (if negb ((d + 1) mod 3 =? x)%Z
        then gmap (fun a : R => nmul a (nofZ (-1))) (gmap (fun a : R => nmul a (ndiv none_ (nofZ 10216))) (GV (ext ps 0) (ext ps 1) (ext ps 2)))
        else gmap (fun a : R => nmul a (ndiv none_ (nofZ 10216))) (GV (ext ps 0) (ext ps 1) (ext ps 2))) =
        GV (s * (ext ps 0 / 10216)) (s * (ext ps 1 / 10216)) (s * (ext ps 2 / 10216))).
    { unfold s, sgn_of. destruct ((d + 1) mod 3 =? x)%Z; cbn [negb]; unfold gmap; cbn [c0 c1 c2 nmul ndiv none_ nofZ R_Num];
        f_equal; lra. }
    rewrite !SC. assert (hs : s = 1 \/ s = -1) by (unfold s, sgn_of; destruct ((d + 1) mod 3 =? x)%Z; auto).
    unfold gmap, gmap2. cbn [c0 c1 c2 neqb nzero none_ ndiv nmul nadd R_Num ndec].
    rewrite !(inverse_one s _ hs). f_equal.
    unfold Rdec. change (Pos.to_nat 1) with 1%nat. rewrite pow_1. f_equal; field. }
  unfold max_axis, min_axis in C. cbn [c0 c1 c2 nltb R_Num] in C. unfold perm_of in *.
  destruct (Rltb_spec (ext ps 0) (ext ps 1)) as [g1|g1]; destruct (Rltb_spec (ext ps 0) (ext ps 2)) as [g2|g2];
    destruct (Rltb_spec (ext ps 1) (ext ps 2)) as [g3|g3]; try (exfalso; lra).
  - exists 1%Z, 2%Z, 0%Z. split; [tauto|]. split; [lra|]. apply C; try reflexivity; [tauto|discriminate].
  - exists 2%Z, 1%Z, 0%Z. split; [tauto|]. split; [lra|]. apply C; try reflexivity; [tauto|discriminate].
  - exists 0%Z, 1%Z, 2%Z. split; [tauto|]. split; [lra|]. apply C; try reflexivity; [tauto|discriminate].
  - exists 0%Z, 2%Z, 1%Z. split; [tauto|]. split; [lra|]. apply C; try reflexivity; [tauto|discriminate].
  - exists 2%Z, 0%Z, 1%Z. split; [tauto|]. split; [lra|]. apply C; try reflexivity; [tauto|discriminate].
  - exists 1%Z, 0%Z, 2%Z. split; [tauto|]. split; [lra|]. apply C; try reflexivity; [tauto|discriminate].
Qed.

Definition cen ps i : R := (mn ps i + mx ps i) / 2.
Definition spot ps (s : R) (p : gvec R) (i : Z) : R := (co p i - cen ps i) * kinv s (ext ps i).
Lemma place_R ps p : exists d x n, perm_of d x n /\ ext ps n <= ext ps d <= ext ps x /\
  amed (frame_of ps) = d /\ amax (frame_of ps) = x /\ amin (frame_of ps) = n /\
  place (frame_of ps) p = Ok (GV (spot ps (sgn_of d x n) p d) (spot ps (sgn_of d x n) p x) (spot ps (sgn_of d x n) p n)).
Proof.
  destruct (frame_R ps) as (d & x & n & hp & ho & e). exists d, x, n. split; [exact hp|]. split; [exact ho|].
  cbv zeta in e. rewrite e. cbn [amed amax amin]. split; [reflexivity|]. split; [reflexivity|]. split; [reflexivity|].
  unfold place, gmap2. cbn [center inverse amed amax amin c0 c1 c2]. clear e ho.
  destruct hp as [(-> & -> & ->)|[(-> & -> & ->)|[(-> & -> & ->)|[(-> & -> & ->)|[(-> & -> & ->)|(-> & -> & ->)]]]]]; reflexivity.
Qed.
Lemma sgn_cases d x n : sgn_of d x n = 1 \/ sgn_of d x n = -1.
Proof. unfold sgn_of. destruct ((d + 1) mod 3 =? x)%Z; auto. Qed.
Lemma spot_box ps s p i : s = 1 \/ s = -1 -> In p ps -> -5108 <= spot ps s p i <= 5108.
Proof.
  intros hs hp. pose proof (mn_le ps p i hp) as h1. pose proof (mx_ge ps p i hp) as h2. unfold spot, kinv, cen.
  destruct (Reqb_spec (ext ps i) 0) as [e|e]; [lra|].
  assert (h0 : 0 < ext ps i) by (unfold ext in *; lra).
  assert (B : -5108 <= (co p i - (mn ps i + mx ps i) / 2) * (10216 / ext ps i) <= 5108).
  { assert (q : 5108 = ext ps i / 2 * (10216 / ext ps i)) by (field; exact e).
    assert (k : 0 < 10216 / ext ps i) by (apply Rdiv_lt_0_compat; lra).
    set (K := 10216 / ext ps i) in *.
    assert (u1 : (co p i - (mn ps i + mx ps i) / 2) * K <= ext ps i / 2 * K)
      by (apply Rmult_le_compat_r; [lra|]; unfold ext; lra).
    assert (u2 : - (ext ps i / 2) * K <= (co p i - (mn ps i + mx ps i) / 2) * K)
      by (apply Rmult_le_compat_r; [lra|]; unfold ext; lra).
    lra. }
  destruct hs as [-> | ->]; lra.
Qed.

(** ** The integers and back *)
Lemma i32_ok z : (- 2 ^ 31 <= z < 2 ^ 31)%Z -> i32 z = Ok z.
Proof.
  intros h. unfold i32. destruct (Z.leb_spec (- 2 ^ 31) z); [|lia]. destruct (Z.ltb_spec z (2 ^ 31)); [|lia]. reflexivity.
Qed.
Lemma i64_ok z : (- 2 ^ 63 <= z < 2 ^ 63)%Z -> i64 z = Ok z.
Proof.
  intros h. unfold i64. destruct (Z.leb_spec (- 2 ^ 63) z); [|lia]. destruct (Z.ltb_spec z (2 ^ 63)); [|lia]. reflexivity.
Qed.
Lemma to_point_R ps p : In p ps -> exists d x n, perm_of d x n /\
  amed (frame_of ps) = d /\ amax (frame_of ps) = x /\ amin (frame_of ps) = n /\
  let t i := truncR (spot ps (sgn_of d x n) p i) in
  to_point truncR (frame_of ps) p = Ok (P32 (t d) (t x) (t n)) /\ in_box 5108 (P32 (t d) (t x) (t n)).
Proof.
  intros hp. destruct (place_R ps p) as (d & x & n & h1 & _ & h3 & h4 & h5 & h6). exists d, x, n.
  split; [exact h1|]. split; [exact h3|]. split; [exact h4|]. split; [exact h5|]. cbv zeta.
  assert (B : forall i, (- 5108 <= truncR (spot ps (sgn_of d x n) p i) <= 5108)%Z).
  { intros i. apply (trunc_box _ 5108). pose proof (spot_box ps (sgn_of d x n) p i (sgn_cases d x n) hp). lra. }
  split; [|split; [apply B|split; apply B]].
  unfold to_point. rewrite h6. cbn [obind c0 c1 c2].
  rewrite i32_ok by (pose proof (B d); lia). cbn [obind]. rewrite i32_ok by (pose proof (B x); lia). cbn [obind].
  rewrite i32_ok by (pose proof (B n); lia). reflexivity.
Qed.
Definition home ps s p i : R := IZR (truncR (spot ps s p i)) * (s * (ext ps i / 10216)) + cen ps i.
Lemma back_R ps p : In p ps -> exists q b s, (s = 1 \/ s = -1) /\ to_point truncR (frame_of ps) p = Ok q /\
  get_coordinates (frame_of ps) q = Ok b /\ forall i, is_axis i -> co b i = home ps s p i.
Proof.
  intros hp. destruct (to_point_R ps p hp) as (d & x & n & h1 & h3 & h4 & h5 & h6 & _).
  destruct (frame_R ps) as (d' & x' & n' & h1' & _ & e). cbv zeta in e.
  assert (d' = d /\ x' = x /\ n' = n) as (-> & -> & ->) by (rewrite e in h3, h4, h5; auto).
  eexists _, _, (sgn_of d x n). split; [apply sgn_cases|]. split; [exact h6|].
  unfold get_coordinates. rewrite e. unfold written. cbn [amed amax amin x32 y32 z32 scaling center]. clear e h6 h3 h4 h5 h1'.
  destruct h1 as [(-> & -> & ->)|[(-> & -> & ->)|[(-> & -> & ->)|[(-> & -> & ->)|[(-> & -> & ->)|(-> & -> & ->)]]]]];
    (split; [reflexivity|]); intros i [->|[->| ->]]; reflexivity.
Qed.
Lemma home_ok ps s p i : s = 1 \/ s = -1 -> In p ps ->
  Rabs (home ps s p i - co p i) <= ext ps i / 10216 /\ mn ps i <= home ps s p i <= mx ps i.
Proof.
  intros hs hp. pose proof (mn_le ps p i hp) as h1. pose proof (mx_ge ps p i hp) as h2. unfold home, spot, kinv.
  destruct (Reqb_spec (ext ps i) 0) as [e|e].
  - rewrite e. assert (mn ps i = mx ps i) as q by (unfold ext in e; lra). unfold cen. rewrite q.
    replace (s * (0 / 10216)) with 0 by (unfold Rdiv; ring). rewrite Rmult_0_r.
    replace (0 + (mx ps i + mx ps i) / 2 - co p i) with 0 by lra. rewrite Rabs_R0. lra.
  - assert (h0 : 0 < ext ps i) by (unfold ext in *; lra).
    set (r := (co p i - cen ps i) * (s * (10216 / ext ps i))). set (u := ext ps i / 10216).
    assert (hu : 0 < u) by (unfold u; lra).
    assert (er : r * (s * u) = co p i - cen ps i).
    { unfold r, u. destruct hs as [-> | ->]; field; exact e. }
    assert (G : Rabs (IZR (truncR r) - r) <= 1 /\
                (0 <= r /\ 0 <= IZR (truncR r) <= r \/ r <= 0 /\ r <= IZR (truncR r) <= 0)).
    { destruct (Rle_lt_dec 0 r) as [g|g].
      - destruct (trunc_pos r g). split; [apply Rabs_le; lra|left; lra].
      - destruct (trunc_neg r) as [? ?]; [lra|]. split; [apply Rabs_le; lra|right; lra]. }
    destruct G as (G1 & G2). split.
    + replace (IZR (truncR r) * (s * u) + cen ps i - co p i) with ((IZR (truncR r) - r) * (s * u)) by lra.
      rewrite Rabs_mult. assert (Rabs (s * u) = u) as ->.
      { rewrite Rabs_mult, (Rabs_pos_eq u) by lra. destruct hs as [-> | ->]; [rewrite Rabs_R1; ring|].
        rewrite Rabs_left by lra. ring. }
      rewrite <- (Rmult_1_l u) at 2. apply Rmult_le_compat_r; lra.
    + assert (cen ps i - mn ps i = ext ps i / 2 /\ mx ps i - cen ps i = ext ps i / 2) as (m1 & m2) by (unfold cen, ext; lra).
      set (w := IZR (truncR r)) in *.
      assert (between : 0 <= co p i - cen ps i /\ 0 <= w * (s * u) <= co p i - cen ps i \/
                        co p i - cen ps i <= 0 /\ co p i - cen ps i <= w * (s * u) <= 0).
      { rewrite <- er. assert (M : forall a b, a <= b -> a * u <= b * u) by (intros; apply Rmult_le_compat_r; lra).
        destruct G2 as [(g1 & g2 & g3)|(g1 & g2 & g3)]; pose proof (M _ _ g1); pose proof (M _ _ g2); pose proof (M _ _ g3);
          destruct hs as [-> | ->]; lra. }
      lra.
Qed.

(** ** Orientation *)
Lemma det_place (k : Z -> R) (c : Z -> R) d x n (a b v w : gvec R) : perm_of d x n ->
  let f p := GV ((co p d - c d) * k d) ((co p x - c x) * k x) ((co p n - c n) * k n) in
  det (f a) (f b) (f v) (f w) = sgn_of d x n * (k 0%Z * k 1%Z * k 2%Z) * det a b v w.
Proof.
  intros hp. destruct hp as [(-> & -> & ->)|[(-> & -> & ->)|[(-> & -> & ->)|[(-> & -> & ->)|[(-> & -> & ->)|(-> & -> & ->)]]]]];
    unfold det, co, sgn_of; cbn; ring.
Qed.
Lemma det_flat ps (a b v w : gvec R) i : is_axis i -> ext ps i = 0 -> In a ps -> In b ps -> In v ps -> In w ps -> det a b v w = 0.
Proof.
  intros ai e ha hb hv hw.
  assert (Q : forall p, In p ps -> co p i = mn ps i).
  { intros p h. pose proof (mn_le ps p i h). pose proof (mx_ge ps p i h). unfold ext in e. lra. }
  unfold det. destruct ai as [->|[->| ->]]; rewrite (Q a ha), (Q b hb), (Q v hv), (Q w hw); ring.
Qed.
Lemma kinv_pos s e : 0 < e -> kinv s e = s * (10216 / e) /\ 0 < 10216 / e.
Proof.
  intros h. unfold kinv. destruct (Reqb_spec e 0); [lra|]. split; [reflexivity|]. apply Rdiv_lt_0_compat; lra.
Qed.

(** ** Integer vectors *)
Local Open Scope Z_scope.
Lemma mul_box a b m n : - m <= a <= m -> - n <= b <= n -> - (m * n) <= a * b <= m * n.
Proof.
  intros h1 h2. assert (Z.abs (a * b) <= m * n); [|lia]. rewrite Z.abs_mul.
  apply Z.mul_le_mono_nonneg; lia.
Qed.
Lemma cross1_ok rng lim a b c d m n : (forall z, - lim <= z < lim -> rng z = Ok z) ->
  - m <= a <= m -> - n <= b <= n -> - m <= c <= m -> - n <= d <= n -> 2 * (m * n) < lim ->
  cross1 rng a b c d = Ok (a * b - c * d) /\ - (2 * (m * n)) <= a * b - c * d <= 2 * (m * n).
Proof.
  intros R h1 h2 h3 h4 hl. pose proof (mul_box a b m n h1 h2). pose proof (mul_box c d m n h3 h4). unfold cross1.
  rewrite R by lia. cbn [obind]. rewrite R by lia. cbn [obind]. rewrite R by lia. split; [reflexivity|lia].
Qed.
Lemma dot1_ok rng lim a b c d e f m n : (forall z, - lim <= z < lim -> rng z = Ok z) ->
  - m <= a <= m -> - n <= b <= n -> - m <= c <= m -> - n <= d <= n -> - m <= e <= m -> - n <= f <= n -> 3 * (m * n) < lim ->
  dot1 rng a b c d e f = Ok (a * b + c * d + e * f) /\ - (3 * (m * n)) <= a * b + c * d + e * f <= 3 * (m * n).
Proof.
  intros R h1 h2 h3 h4 h5 h6 hl. pose proof (mul_box a b m n h1 h2). pose proof (mul_box c d m n h3 h4).
  pose proof (mul_box e f m n h5 h6). unfold dot1.
  rewrite R by lia. cbn [obind]. rewrite R by lia. cbn [obind]. rewrite R by lia. cbn [obind].
  rewrite R by lia. cbn [obind]. rewrite R by lia. split; [reflexivity|lia].
Qed.
Definition box64 (n : Z) (p : p64) : Prop := - n <= x64 p <= n /\ - n <= y64 p <= n /\ - n <= z64 p <= n.
Definition zof64 (p : p64) : zv := (x64 p, y64 p, z64 p).
Lemma psub_ok a b m n : in_box m a -> in_box n b -> m + n < 2 ^ 31 ->
  exists c, psub a b = Ok c /\ zof c = zminus (zof a) (zof b) /\ in_box (m + n) c.
Proof.
  intros (h1 & h2 & h3) (k1 & k2 & k3) hl. unfold psub.
  rewrite i32_ok by lia. cbn [obind]. rewrite i32_ok by lia. cbn [obind]. rewrite i32_ok by lia. cbn [obind].
  eexists. split; [reflexivity|]. split; [reflexivity|]. unfold in_box. cbn [x32 y32 z32]. lia.
Qed.
Lemma cross32_ok a b m n : in_box m a -> in_box n b -> 2 * (m * n) < 2 ^ 31 ->
  exists c, cross32 a b = Ok c /\ zof64 c = zcross (zof a) (zof b) /\ box64 (2 * (m * n)) c.
Proof.
  intros (h1 & h2 & h3) (k1 & k2 & k3) hl. unfold cross32.
  destruct (cross1_ok i32 (2 ^ 31) (y32 a) (z32 b) (z32 a) (y32 b) m n i32_ok) as (e1 & b1); auto. rewrite e1. cbn [obind].
  destruct (cross1_ok i32 (2 ^ 31) (z32 a) (x32 b) (x32 a) (z32 b) m n i32_ok) as (e2 & b2); auto. rewrite e2. cbn [obind].
  destruct (cross1_ok i32 (2 ^ 31) (x32 a) (y32 b) (y32 a) (x32 b) m n i32_ok) as (e3 & b3); auto. rewrite e3. cbn [obind].
  eexists. split; [reflexivity|]. split; [reflexivity|]. split; [exact b1|]. split; [exact b2|exact b3].
Qed.
Lemma cross64_ok a b m n : in_box m a -> box64 n b -> 2 * (m * n) < 2 ^ 63 ->
  exists c, cross64 a b = Ok c /\ zof64 c = zcross (zof a) (zof64 b) /\ box64 (2 * (m * n)) c.
Proof.
  intros (h1 & h2 & h3) (k1 & k2 & k3) hl. unfold cross64.
  destruct (cross1_ok i64 (2 ^ 63) (y32 a) (z64 b) (z32 a) (y64 b) m n i64_ok) as (e1 & b1); auto. rewrite e1. cbn [obind].
  destruct (cross1_ok i64 (2 ^ 63) (z32 a) (x64 b) (x32 a) (z64 b) m n i64_ok) as (e2 & b2); auto. rewrite e2. cbn [obind].
  destruct (cross1_ok i64 (2 ^ 63) (x32 a) (y64 b) (y32 a) (x64 b) m n i64_ok) as (e3 & b3); auto. rewrite e3. cbn [obind].
  eexists. split; [reflexivity|]. split; [reflexivity|]. split; [exact b1|]. split; [exact b2|exact b3].
Qed.
Lemma dot3264_ok a b m n : in_box m a -> box64 n b -> 3 * (m * n) < 2 ^ 63 ->
  dot32_64 a b = Ok (zdot (zof a) (zof64 b)) /\ - (3 * (m * n)) <= zdot (zof a) (zof64 b) <= 3 * (m * n).
Proof.
  intros (h1 & h2 & h3) (k1 & k2 & k3) hl. unfold dot32_64. apply (dot1_ok i64 (2 ^ 63)); auto. apply i64_ok.
Qed.
Lemma dot64_ok a b m n : box64 m a -> box64 n b -> 3 * (m * n) < 2 ^ 63 ->
  dot64 a b = Ok (zdot (zof64 a) (zof64 b)) /\ - (3 * (m * n)) <= zdot (zof64 a) (zof64 b) <= 3 * (m * n).
Proof.
  intros (h1 & h2 & h3) (k1 & k2 & k3) hl. unfold dot64. apply (dot1_ok i64 (2 ^ 63)); auto. apply i64_ok.
Qed.
