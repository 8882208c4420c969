(** C58: the crossing test for polygons and the placement that uses it. *)
From Coq Require Import Reals List Arith Bool Lia Lra.
From Verif Require Import Base Py Model_Mob Model_Close Model_Place Model_Polygon Spec_Polygon Proof_Close Proof_Polygon.
Import ListNotations.
Local Open Scope R_scope.

(** Points strictly inside a strictly convex polygon are reported as inside,
    points strictly outside one of its edges as outside, whichever way round the
    vertices are listed. *)
Theorem C58_convex_polygon s poly x y :
  s = 1 \/ s = -1 -> strictly_convex s poly ->
  (interior s poly (x, y) -> point_inside_polygon x y poly = Ok true) /\
  (exterior s poly (x, y) -> point_inside_polygon x y poly = Ok false).
Proof.
  intros S C. split; [apply (inside_interior s S poly C)|apply (inside_exterior s S poly C)].
Qed.
Print Assumptions C58_convex_polygon.

(** For every polygon with a vertex the function returns, and every polygon
    without raises. *)
Theorem C58_returns x y poly :
  (poly = [] -> point_inside_polygon x y poly = Raise IndexError) /\
  (poly <> [] -> exists b, point_inside_polygon x y poly = Ok b).
Proof.
  split; [intros ->; reflexivity|]. intros N. eexists. apply polygon_xor.
  destruct poly; [contradiction|simpl; lia].
Qed.
Print Assumptions C58_returns.

(** Finding: [randomise_beads_inside_quadrilateral] never returns positions.
    Whatever the arguments and the random numbers, once all beads are placed the
    [reshape] with a fractional dimension raises. *)
Theorem C58_quadrilateral_refuted rand k q sizes current r :
  q <> [] ->
  (forall fuel, randomise_beads_inside_quadrilateral rand fuel k q sizes current r = None \/
                randomise_beads_inside_quadrilateral rand fuel k q sizes current r = Some (Raise TypeError)).
Proof.
  intros N fuel. unfold randomise_beads_inside_quadrilateral.
  destruct q as [|p0 q0] eqn:E; [contradiction|]. cbn [column_min column_max map]. rewrite <- E in *.
  match goal with |- context [place_beads rand q ?lo ?hi current r fuel k ?sz []] =>
    assert (G : place_beads rand q lo hi current r fuel k sz [] = None
             \/ exists bs, place_beads rand q lo hi current r fuel k sz [] = Some (Ok bs));
    [ set (l := lo); set (h := hi); generalize sz | destruct G as [->|[bs ->]]; [left|right]; reflexivity ]
  end.
  generalize (@nil (R * vec)). generalize k. clear - N. intros k beads sz. revert k beads.
  induction sz as [|a sz IH]; intros k beads; [right; eexists; reflexivity|]. cbn [place_beads].
  assert (B : place_bead rand q l h current r fuel k a beads = None
           \/ exists x, place_bead rand q l h current r fuel k a beads = Some (Ok x)).
  { clear IH. revert k. induction fuel as [|fuel IH]; intros k; [left; reflexivity|]. cbn [place_bead].
    destruct (C58_returns (random_point_in_box rand l h k 0%nat) (random_point_in_box rand l h k 2%nat) q) as [_ R].
    destruct (R N) as [b ->]. destruct (b && _ && _); [right; eexists; reflexivity|apply IH]. }
  destruct B as [->|[[p k'] ->]]; [left; reflexivity|apply IH].
Qed.
Print Assumptions C58_quadrilateral_refuted.

(** The beads it has placed by then: one for each size, in order, each in the
    polygon according to the test above, none overlapping a sphere already
    present or another bead. *)
Lemma place_bead_spec rand q lo hi current r : forall fuel k size beads p k',
  place_bead rand q lo hi current r fuel k size beads = Some (Ok (p, k')) ->
  point_inside_polygon (p 0%nat) (p 2%nat) q = Ok true /\
  (forall c, In c current -> size + r <= norm (vsub p c)) /\ (forall b, In b beads -> size + fst b <= norm (vsub p (snd b))).
Proof.
  assert (X : forall A (f : A -> bool) l, negb (existsb f l) = true -> forall c, In c l -> f c = false).
  { intros A f l H c Hc. apply negb_true_iff in H. destruct (f c) eqn:E; [|reflexivity].
    assert (existsb f l = true) by (apply existsb_exists; exists c; auto). congruence. }
  assert (O : forall a b s t, overlaps a b s t = false -> s + t <= norm (vsub a b)).
  { intros a b s t H. unfold overlaps in H. destruct (Rlt_le_dec (norm (vsub a b)) (s + t)) as [L|L]; [|exact L].
    apply Rltb_spec in L. congruence. }
  induction fuel as [|fuel IH]; intros k size beads p k' H; [discriminate|]. cbn [place_bead] in H.
  destruct (point_inside_polygon _ _ _) as [b|] eqn:E; [|discriminate].
  destruct (b && _ && _)%bool eqn:C; [|apply (IH _ _ _ _ _ H)].
  apply andb_true_iff in C. destruct C as [C C3]. apply andb_true_iff in C. destruct C as [C1 C2].
  injection H as <- _. subst b. split; [exact E|]. split.
  - intros c Hc. apply O. apply (X _ (fun q => overlaps (random_point_in_box rand lo hi k) q size r) current C2 c Hc).
  - intros c Hc. apply O. apply (X _ (fun b => overlaps (random_point_in_box rand lo hi k) (snd b) size (fst b)) beads C3 c Hc).
Qed.
Theorem C58_beads rand q lo hi current r fuel k sizes beads :
  place_beads rand q lo hi current r fuel k sizes [] = Some (Ok beads) ->
  map fst beads = sizes /\
  (forall b, In b beads -> point_inside_polygon (snd b 0%nat) (snd b 2%nat) q = Ok true /\
     forall c, In c current -> fst b + r <= norm (vsub (snd b) c)) /\
  (forall i j, (i < j < length beads)%nat ->
     let b := nth i beads (0, v3 0 0 0) in let c := nth j beads (0, v3 0 0 0) in
     fst c + fst b <= norm (vsub (snd c) (snd b))).
Proof.
  assert (G : forall sizes k done beads, place_beads rand q lo hi current r fuel k sizes done = Some (Ok beads) ->
    (forall b, In b done -> point_inside_polygon (snd b 0%nat) (snd b 2%nat) q = Ok true /\ forall c, In c current -> fst b + r <= norm (vsub (snd b) c)) ->
    (forall i j, (i < j < length done)%nat -> let b := nth i done (0, v3 0 0 0) in let c := nth j done (0, v3 0 0 0) in fst c + fst b <= norm (vsub (snd c) (snd b))) ->
    map fst beads = map fst done ++ sizes /\
    (forall b, In b beads -> point_inside_polygon (snd b 0%nat) (snd b 2%nat) q = Ok true /\ forall c, In c current -> fst b + r <= norm (vsub (snd b) c)) /\
    (forall i j, (i < j < length beads)%nat -> let b := nth i beads (0, v3 0 0 0) in let c := nth j beads (0, v3 0 0 0) in fst c + fst b <= norm (vsub (snd c) (snd b)))).
  { clear. induction sizes as [|a l IH]; intros k done beads H H1 H2; cbn [place_beads] in H.
    - injection H as <-. rewrite app_nil_r. auto.
    - destruct (place_bead _ _ _ _ _ _ _ _ _ _) as [[[p k']|e]|] eqn:E; try discriminate.
      destruct (place_bead_spec _ _ _ _ _ _ _ _ _ _ _ _ E) as (P1 & P2 & P3).
      destruct (IH _ _ _ H) as (A & B & C).
      + intros b Hb. apply in_app_or in Hb. destruct Hb as [Hb|[<-|[]]]; [apply H1; exact Hb|]. split; [exact P1|exact P2].
      + intros i j Hij. rewrite app_length in Hij. cbn [length] in Hij. destruct (Nat.eq_dec j (length done)) as [->|Nj].
        * rewrite (app_nth1 _ _ _ (proj1 Hij)), nth_middle. cbn [fst snd]. apply P3. apply nth_In. lia.
        * rewrite !app_nth1 by lia. apply H2. lia.
      + split; [|split; [exact B|exact C]]. rewrite A, map_app. cbn [map fst]. rewrite <- app_assoc. reflexivity. }
  intros H. apply (G _ _ _ _ H).
  - intros b [].
  - cbn [length]. intros i j Hij. lia.
Qed.
Print Assumptions C58_beads.

(** Example: a square of side 4, listed both ways round. *)
Definition square : list point := [(0, 0); (4, 0); (4, 4); (0, 4)].
Lemma square_ccw : strictly_convex 1 square.
Proof.
  split; [simpl; lia|]. intros i j Hi Hj N1 N2. simpl in Hi, Hj, N2.
  destruct i as [|[|[|[|i]]]]; try lia; destruct j as [|[|[|[|j]]]]; try lia; simpl in N2; try lia;
    unfold side, vertex, square; simpl; lra.
Qed.
Lemma square_cw : strictly_convex (-1) (rev square).
Proof.
  split; [simpl; lia|]. intros i j Hi Hj N1 N2. simpl in Hi, Hj, N2.
  destruct i as [|[|[|[|i]]]]; try lia; destruct j as [|[|[|[|j]]]]; try lia; simpl in N2; try lia;
    unfold side, vertex, square; simpl; lra.
Qed.
Lemma square_interior x y : 0 < x < 4 -> 0 < y < 4 -> interior 1 square (x, y).
Proof.
  intros X Y i Hi. simpl in Hi. destruct i as [|[|[|[|i]]]]; try lia; unfold side, vertex, square; simpl; lra.
Qed.
Example C58_example :
  point_inside_polygon 1 3 square = Ok true /\ point_inside_polygon 5 3 square = Ok false /\
  point_inside_polygon (-1) 4 square = Ok false /\ point_inside_polygon 1 5 (rev square) = Ok false.
Proof.
  split; [|split; [|split]].
  - apply (C58_convex_polygon 1 square 1 3 (or_introl eq_refl) square_ccw). apply square_interior; lra.
  - apply (C58_convex_polygon 1 square 5 3 (or_introl eq_refl) square_ccw).
    exists 1%nat. split; [simpl; lia|]. unfold side, vertex, square; simpl; lra.
  - apply (C58_convex_polygon 1 square (-1) 4 (or_introl eq_refl) square_ccw).
    exists 3%nat. split; [simpl; lia|]. unfold side, vertex, square; simpl; lra.
  - apply (C58_convex_polygon (-1) (rev square) 1 5 (or_intror eq_refl) square_cw).
    exists 0%nat. split; [simpl; lia|]. unfold side, vertex, square; simpl; lra.
Qed.

(** Example: the loops do end, for one dumbbell in the square, with the first
    six random numbers. *)
Definition quarters (k : nat) : R := if Nat.ltb k 3 then 1 / 4 else 3 / 4.
Example C58_quadrilateral_example :
  randomise_beads_inside_quadrilateral quarters 1 0 square [1] [] 1 = Some (Raise TypeError).
Proof.
  unfold randomise_beads_inside_quadrilateral, square. cbn [column_min column_max map fst snd fold_left flat_map app].
  assert (M0 : Rmin 0 0 = 0 /\ Rmin 0 4 = 0 /\ Rmax 0 0 = 0 /\ Rmax 0 4 = 4 /\ Rmax 4 4 = 4 /\ Rmax 4 0 = 4)
    by (repeat split; first [apply Rmin_left; lra | apply Rmax_left; lra | apply Rmax_right; lra]).
  destruct M0 as [M1 [M2 [M3 [M4 [M5 M6]]]]]. rewrite ?M1, ?M2, ?M3, ?M4, ?M5, ?M6. rewrite ?M1, ?M2, ?M3, ?M4, ?M5, ?M6. fold square.
  assert (P : forall k, random_point_in_box quarters (v3 0 0 0) (v3 4 0 4) k 0%nat = quarters k * 4
                     /\ random_point_in_box quarters (v3 0 0 0) (v3 4 0 4) k 2%nat = quarters (k + 2) * 4).
  { intros k. unfold random_point_in_box, v3; simpl. rewrite Nat.add_0_r. split; ring. }
  cbn [place_beads place_bead]. destruct (P 0%nat) as [-> ->].
  rewrite (proj1 (C58_convex_polygon 1 square (quarters 0 * 4) (quarters (0 + 2) * 4) (or_introl eq_refl) square_ccw)).
  2: { apply square_interior; unfold quarters; simpl; lra. }
  cbn [existsb negb andb app place_beads place_bead Nat.add]. destruct (P 3%nat) as [-> ->].
  rewrite (proj1 (C58_convex_polygon 1 square (quarters 3 * 4) (quarters (3 + 2) * 4) (or_introl eq_refl) square_ccw)).
  2: { apply square_interior; unfold quarters; simpl; lra. }
  cbn [existsb negb andb orb snd fst]. unfold overlaps.
  replace (Rltb _ (1 + 1)) with false; [reflexivity|]. symmetry. unfold Rltb.
  destruct (Rlt_dec _ _) as [L|L]; [exfalso|reflexivity]. revert L. apply Rle_not_lt.
  unfold norm, vsub. replace (1 + 1) with (sqrt 4) by (replace 4 with (2 * 2) by ring; rewrite sqrt_square by lra; ring).
  apply sqrt_le_1_alt. unfold dot3, random_point_in_box, v3, quarters; simpl. lra.
Qed.
