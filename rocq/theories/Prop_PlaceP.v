(** C79: random placement of dumbbells in a periodic box. *)
From Coq Require Import Reals List Arith ZArith Bool Lia Lra.
From Verif Require Import Base Py Model_Mob Model_Close Model_Place Model_PlaceP Spec_Place Spec_PlaceP Proof_Place Proof_Periodic2 Proof_PlaceP Proof_PlaceP2.
Import ListNotations.
Local Open Scope R_scope.

Section Placed.
Variables (rand : nat -> R) (lo hi : vec) (dx : R) (theta phi : angle) (fuel k : nat) (sizes : list R) (current : list (R * vec)).
Variables (ds : list (vec * vec * bool)) (k' : nat).
Hypothesis Hrand : forall n, 0 <= rand n < 1.
Hypothesis Hbox : lo 0%nat < hi 0%nat /\ lo 1%nat <= hi 1%nat /\ lo 2%nat < hi 2%nat.
Hypothesis Hrun : randomise_dumbbells_periodic rand lo hi dx theta phi fuel k sizes current = Some (Ok (ds, k')).
Let d i := fst (nth i ds (v3 0 0 0, v3 0 0 0, false)).

Let Hbox' : forall i, (i < 3)%nat -> lo i <= hi i.
Proof. intros i Hi. idx3 Hi; lra. Qed.
Lemma C79_places : places_periodic rand lo hi dx theta phi fuel k sizes current [] = Some (ds, k').
Proof.
  unfold randomise_dumbbells_periodic in Hrun. destruct (places_periodic _ _ _ _ _ _ _ _ _ _ _) as [[qs k1]|]; [|discriminate].
  destruct (some_distance _) in Hrun; [|discriminate]. injection Hrun as -> ->. reflexivity.
Qed.
Lemma C79_raw : exists raw, length raw = length sizes /\ length ds = length sizes /\
  (forall i, (i < length sizes)%nat -> d i = (wrap lo hi (vscal (1 / 2) (vadd (fst (nth i raw d0)) (snd (nth i raw d0)))), vsub (snd (nth i raw d0)) (fst (nth i raw d0)))) /\
  (forall i, (i < length sizes)%nat -> goodP lo hi dx theta phi (nth i sizes 0) (fst (nth i raw d0)) (snd (nth i raw d0)) current) /\
  (forall i j, (i < j)%nat -> (j < length sizes)%nat -> forall bi bj m n, (-1 <= m <= 1)%Z -> (-1 <= n <= 1)%Z ->
     apart (nth j sizes 0) (end_ bj (nth j raw d0)) (nth i sizes 0) (image lo hi (end_ bi (nth i raw d0)) m n)).
Proof.
  destruct (places_periodic_good lo hi rand Hrand Hbox' dx theta phi fuel sizes _ _ _ _ _ C79_places) as [raw [L [M [A B]]]].
  assert (L2 : length ds = length sizes).
  { rewrite <- L. apply (f_equal (@length _)) in M. rewrite !map_length in M. exact M. }
  exists raw. split; [exact L|]. split; [exact L2|]. rewrite L, app_nil_r in *. split; [|split; [exact A|exact B]].
  intros i Hi. unfold d. change (v3 0 0 0, v3 0 0 0, false) with (d0, false).
  rewrite <- (map_nth (fun x : vec * vec * bool => fst x)).
  cbn [fst]. rewrite M. set (f := fun p : vec * vec => _). rewrite (nth_indep _ d0 (f d0)) by (rewrite map_length; lia). rewrite (map_nth f). reflexivity.
Qed.

(** Whatever the random numbers: every dumbbell asked for is there, its centre is
    in the periodic box, its beads are dx apart, in the direction of the angles
    if these are given; and no interactive shell is opened unless a radius is
    below 0.1. *)
Theorem C79_placed :
  length ds = length sizes /\
  (forall i, (i < length ds)%nat ->
     (lo 0%nat <= fst (d i) 0%nat < hi 0%nat) /\ (lo 2%nat <= fst (d i) 2%nat < hi 2%nat)) /\
  (forall i, (i < length ds)%nat -> exists t f,
     (match theta with Fixed x => t = x | Random => True end) /\ (match phi with Fixed x => f = x | Random => True end) /\
     forall n, snd (d i) n = dx * v3 (sin t * cos f) (sin t * sin f) (cos t) n) /\
  (forall i, (i < length ds)%nat -> dist3 (bead true (d i)) (bead false (d i)) = Rabs dx) /\
  ((forall r, In r sizes -> 1 / 10 <= r) -> forall x, In x ds -> snd x = false).
Proof.
  destruct C79_raw as [raw [L [L2 [M [A B]]]]]. split; [exact L2|]. rewrite L2.
  assert (Dir : forall i, (i < length sizes)%nat -> exists t f, angle_ok theta t /\ angle_ok phi f /\ forall n, snd (d i) n = dx * direction t f n).
  { intros i Hi. destruct (A i Hi) as [_ [_ [_ [t [f [H1 [H2 H3]]]]]]]. exists t, f. split; [exact H1|]. split; [exact H2|].
    intros n. rewrite (M i Hi). cbn [snd]. unfold vsub. rewrite H3. ring. }
  split; [|split; [exact Dir|split]].
  - intros i Hi. rewrite (M i Hi). cbn [fst]. pose proof (wrap_range lo hi (vscal (1 / 2) (vadd (fst (nth i raw d0)) (snd (nth i raw d0)))) ltac:(lra) ltac:(lra)). tauto.
  - intros i Hi. destruct (Dir i Hi) as [t [f [_ [_ D]]]]. unfold dist3, bead.
    rewrite !D. unfold direction. cbn [v3].
    replace (_ + _ + _) with (dx * dx * (sin t * cos f * (sin t * cos f) + sin t * sin f * (sin t * sin f) + cos t * cos t)) by field.
    rewrite direction_unit, Rmult_1_r. apply sqrt_Rsqr_abs.
  - intros Hs. exact (no_shell lo hi rand Hrand Hbox' dx theta phi fuel sizes Hs _ _ _ _ _ (fun r p (I : In (r, p) []) => match I with end) C79_places).
Qed.

(** Provided that no dumbbell has been displaced in y: beads of different
    dumbbells, and all their periodic images at whatever distance, do not
    overlap, nor do the images of one dumbbell; nor does any image of a bead
    overlap a sphere present before in the box.  The box must be wider than two
    beads and two dumbbells. *)
Theorem C79_apart :
  hi 1%nat - lo 1%nat + Rabs dx < 1000000 ->
  (forall i, (i < length ds)%nat -> fst (d i) 1%nat <= hi 1%nat + Rabs dx / 2) ->
  (forall r r', In r sizes -> In r' (sizes ++ map fst current) ->
     r + r' + 2 * Rabs dx <= hi 0%nat - lo 0%nat /\ r + r' + 2 * Rabs dx <= hi 2%nat - lo 2%nat) ->
  (forall i j b c m n, (i < length ds)%nat -> (j < length ds)%nat -> i <> j \/ (m <> 0 \/ n <> 0)%Z ->
     apart (nth i sizes 0) (bead b (d i)) (nth j sizes 0) (image lo hi (bead c (d j)) m n)) /\
  (forall i b r p m n, (i < length ds)%nat -> In (r, p) current -> in_box lo hi p ->
     apart (nth i sizes 0) (bead b (d i)) r (image lo hi p m n)).
Proof.
  intros Hy Hup Hw. destruct C79_raw as [raw [L [L2 [M [A B]]]]]. rewrite L2 in *.
  set (e := Rabs dx) in *. assert (He : 0 <= e) by apply Rabs_pos.
  (* end points of each raw dumbbell *)
  assert (St : forall i, (i < length sizes)%nat -> forall c, (c < 3)%nat ->
    Rabs (snd (nth i raw d0) c - fst (nth i raw d0) c) <= e).
  { intros i Hi c Hc. destruct (A i Hi) as [_ [_ [_ [t [f [_ [_ H3]]]]]]]. rewrite H3.
    replace (_ + _ - _) with (dx * direction t f c) by ring. rewrite Rabs_mult. fold e. pose proof (direction_le t f c Hc). nra. }
  assert (Bx : forall i, (i < length sizes)%nat -> forall b c, (c < 3)%nat -> lo c - e <= end_ b (nth i raw d0) c <= hi c + e).
  { intros i Hi b c Hc. destruct (A i Hi) as [H1 _]. specialize (H1 c Hc). pose proof (St i Hi c Hc) as S1.
    unfold Rabs in S1. destruct b; cbn [end_]; destruct (Rcase_abs _) in S1; lra. }
  (* the centre is shifted along x and z only *)
  assert (Sh : forall i, (i < length sizes)%nat -> exists m n, forall b c, (c < 3)%nat ->
    bead b (d i) c = end_ b (nth i raw d0) c - v3 (IZR m * (hi 0%nat - lo 0%nat)) 0 (IZR n * (hi 2%nat - lo 2%nat)) c).
  { intros i Hi. pose proof (Hup i Hi) as U. rewrite (M i Hi) in U |- *. cbn [fst] in U.
    set (mid := vscal (1 / 2) (vadd (fst (nth i raw d0)) (snd (nth i raw d0)))) in *.
    destruct (wrap_int lo hi mid) as [m [q [n E]]]. pose proof (wrap_range lo hi mid ltac:(lra) ltac:(lra)) as [_ [R1 _]].
    assert (Q : q = 0%Z).
    { pose proof (E 1%nat ltac:(lia)) as E1. cbn [v3] in E1. destruct (A i Hi) as [H1 _]. specialize (H1 1%nat ltac:(lia)).
      assert (Mid : lo 1%nat - e / 2 <= mid 1%nat <= hi 1%nat + e / 2).
      { unfold mid, vscal, vadd. pose proof (St i Hi 1%nat ltac:(lia)) as S1. unfold Rabs in S1. destruct (Rcase_abs _) in S1; lra. }
      assert (-1 < IZR q < 1) as [Q1 Q2] by lra. apply lt_IZR in Q1, Q2. lia. }
    exists m, n. intros b c Hc. unfold bead. cbn [fst snd]. rewrite E by exact Hc. rewrite Q. unfold mid, vscal, vadd, vsub.
    idx3 Hc; cbn [v3]; destruct b; cbn [end_]; field. }
  (* moving both beads by periods changes only the image *)
  assert (Mv : forall r p r' q p' q' m n a b a' b', (forall c, (c < 3)%nat -> p' c = p c - v3 (IZR a * (hi 0%nat - lo 0%nat)) 0 (IZR b * (hi 2%nat - lo 2%nat)) c) ->
     (forall c, (c < 3)%nat -> q' c = q c - v3 (IZR a' * (hi 0%nat - lo 0%nat)) 0 (IZR b' * (hi 2%nat - lo 2%nat)) c) ->
     apart r p r' (image lo hi q (m + a - a') (n + b - b')) -> apart r p' r' (image lo hi q' m n)).
  { intros r p r' q p' q' m n a b a' b' E1 E2. unfold apart. rewrite (dist_ext3 p' (image lo hi q' m n) p (image lo hi q (m + a - a') (n + b - b'))); [tauto|].
    intros c Hc. unfold image. idx3 Hc; cbn [v3]; rewrite ?E1, ?E2, ?minus_IZR, ?plus_IZR by lia; cbn [v3]; ring. }
  split.
  - intros i j b c m n Hi Hj Dij. destruct (Sh i Hi) as [a [a2 Ea]]. destruct (Sh j Hj) as [g [g2 Eg]].
    assert (Ii : In (nth i sizes 0) sizes) by (apply nth_In; exact Hi).
    assert (Ij : In (nth j sizes 0) sizes) by (apply nth_In; exact Hj).
    destruct (Hw _ _ Ii (in_or_app _ _ _ (or_introl Ij))) as [W0 W2].
    apply (Mv _ _ _ _ _ _ m n a a2 g g2 (Ea b) (Eg c)).
    assert (N : forall c', (c' = 0 \/ c' = 2)%nat -> Rabs (end_ b (nth i raw d0) c' - end_ c (nth j raw d0) c') <= hi c' - lo c' + 2 * e).
    { intros c' Hc'. assert (c' < 3)%nat by lia. pose proof (Bx i Hi b c' ltac:(lia)). pose proof (Bx j Hj c c' ltac:(lia)). apply Rabs_le. lra. }
    destruct (Nat.lt_trichotomy i j) as [C|[C|C]].
    + apply apart_all with e; try lra; [apply N; lia|apply N; lia|]. intros m' n' Hm' Hn'. apply apart_image_sym. apply B; lia.
    + subst j. destruct Dij as [Dij|Dij]; [contradiction|].
      assert (a = g /\ a2 = g2) as [-> ->].
      { pose proof (Ea b 0%nat ltac:(lia)) as X1. pose proof (Eg b 0%nat ltac:(lia)) as X2. pose proof (Ea b 2%nat ltac:(lia)) as X3. pose proof (Eg b 2%nat ltac:(lia)) as X4.
        cbn [v3] in *. split; apply eq_IZR; [apply Rmult_eq_reg_r with (hi 0%nat - lo 0%nat); lra|apply Rmult_eq_reg_r with (hi 2%nat - lo 2%nat); lra]. }
      assert (Sm : forall c', (c' < 3)%nat -> Rabs (end_ b (nth i raw d0) c' - end_ c (nth i raw d0) c') <= e).
      { intros c' Hc'. pose proof (St i Hi c' Hc'). destruct b, c; cbn [end_]; try (rewrite Rminus_diag_eq, Rabs_R0 by reflexivity; exact He); [assumption|rewrite Rabs_minus_sym; assumption]. }
      replace (m + g - g)%Z with m by lia. replace (n + g2 - g2)%Z with n by lia.
      assert (Far : forall w x (z : Z), 0 < w -> Rabs x <= e -> (z <> 0)%Z -> w - e <= Rabs (x - IZR z * w)).
      { intros w x z Hw' Hx Hz. assert (X : - e <= x <= e) by (unfold Rabs in Hx; destruct (Rcase_abs x); lra).
        destruct (Z_lt_le_dec z 0) as [Z1|Z1].
        - assert (Z2 : (z <= -1)%Z) by lia. apply IZR_le in Z2. apply Rle_trans with (2 := Rle_abs _). nra.
        - assert (Z2 : (1 <= z)%Z) by lia. apply IZR_le in Z2. rewrite <- Rabs_Ropp. apply Rle_trans with (2 := Rle_abs _). nra. }
      destruct Dij as [Dij|Dij]; unfold apart.
      * apply Rle_trans with (hi 0%nat - lo 0%nat - e); [lra|]. apply (dist_ge _ _ 0%nat); [lia|]. unfold image. cbn [v3].
        replace (_ - (_ + _)) with (end_ b (nth i raw d0) 0%nat - end_ c (nth i raw d0) 0%nat - IZR m * (hi 0%nat - lo 0%nat)) by ring. apply Far; [lra|apply Sm; lia|exact Dij].
      * apply Rle_trans with (hi 2%nat - lo 2%nat - e); [lra|]. apply (dist_ge _ _ 2%nat); [lia|]. unfold image. cbn [v3].
        replace (_ - (_ + _)) with (end_ b (nth i raw d0) 2%nat - end_ c (nth i raw d0) 2%nat - IZR n * (hi 2%nat - lo 2%nat)) by ring. apply Far; [lra|apply Sm; lia|exact Dij].
    + apply apart_all with e; try lra; [apply N; lia|apply N; lia|]. intros m' n' Hm' Hn'. apply B; lia.
  - intros i b r p m n Hi Ip Bp. destruct (Sh i Hi) as [a [a2 Ea]].
    assert (Ii : In (nth i sizes 0) sizes) by (apply nth_In; exact Hi).
    assert (Ir : In r (sizes ++ map fst current)) by (apply in_or_app; right; apply (in_map fst) in Ip; exact Ip).
    destruct (Hw _ _ Ii Ir) as [W0 W2].
    apply (Mv _ _ _ p _ p m n a a2 0%Z 0%Z (Ea b)); [intros c Hc; idx3 Hc; cbn [v3]; ring|].
    assert (N : forall c', (c' = 0 \/ c' = 2)%nat -> Rabs (end_ b (nth i raw d0) c' - p c') <= hi c' - lo c' + 2 * e).
    { intros c' Hc'. pose proof (Bx i Hi b c' ltac:(lia)). pose proof (Bp c' ltac:(lia)). apply Rabs_le. lra. }
    apply apart_all with e; try lra; [apply N; lia|apply N; lia|]. intros m' n' Hm' Hn'.
    destruct (A i Hi) as [_ [F1 [F2 _]]]. destruct b; cbn [end_]; [apply F2|apply F1]; assumption.
Qed.

(** (Finding) In a flat box the dumbbells which point to negative y are put a
    million above the plane, as y is taken modulo 1e6. *)
Theorem C79_flat_box_refuted i :
  hi 1%nat = lo 1%nat -> Rabs dx <= 1000000 -> (i < length ds)%nat -> snd (d i) 1%nat < 0 ->
  fst (d i) 1%nat = lo 1%nat + 1000000 + snd (d i) 1%nat / 2.
Proof.
  intros Hf Hd Hi Hn. destruct C79_raw as [raw [L [L2 [M [A B]]]]]. rewrite L2 in Hi. rewrite (M i Hi) in *. cbn [fst snd] in *.
  destruct (A i Hi) as [H1 [_ [_ [t [f [_ [_ H3]]]]]]]. specialize (H1 1%nat ltac:(lia)). specialize (H3 1%nat).
  set (mid := vscal (1 / 2) (vadd (fst (nth i raw d0)) (snd (nth i raw d0)))) in *.
  destruct (wrap_int lo hi mid) as [m [q [n E]]]. pose proof (wrap_range lo hi mid ltac:(lra) ltac:(lra)) as [_ [R1 _]].
  pose proof (E 1%nat ltac:(lia)) as E1. cbn [v3] in E1. rewrite E1 in R1 |- *. unfold vsub in *.
  pose proof (direction_le t f 1%nat ltac:(lia)) as D1.
  assert (Dl : Rabs (dx * direction t f 1%nat) <= 1000000).
  { rewrite Rabs_mult. pose proof (Rabs_pos dx). pose proof (Rabs_pos (direction t f 1%nat)). nra. }
  assert (Dl' : - 1000000 <= dx * direction t f 1%nat).
  { unfold Rabs in Dl. destruct (Rcase_abs _) in Dl; lra. }
  assert (Mid : mid 1%nat = lo 1%nat + (snd (nth i raw d0) 1%nat - fst (nth i raw d0) 1%nat) / 2).
  { unfold mid, vscal, vadd. assert (fst (nth i raw d0) 1%nat = lo 1%nat) as -> by lra. field. }
  assert (Q : q = (-1)%Z).
  { assert (-2 < IZR q < 0) as [Q1 Q2] by lra. apply lt_IZR in Q1, Q2. lia. }
  rewrite Q, Mid. lra.
Qed.
End Placed.
Print Assumptions C79_placed.
Print Assumptions C79_apart.
Print Assumptions C79_flat_box_refuted.

(** With at least one dumbbell of nonzero length the function returns when its
    loops have ended; without dumbbells it raises ValueError. *)
Theorem C79_returns rand lo hi dx theta phi fuel k sizes current :
  (dx <> 0 -> sizes <> [] -> forall ds k', places_periodic rand lo hi dx theta phi fuel k sizes current [] = Some (ds, k') ->
   randomise_dumbbells_periodic rand lo hi dx theta phi fuel k sizes current = Some (Ok (ds, k'))) /\
  (sizes = [] -> randomise_dumbbells_periodic rand lo hi dx theta phi fuel k sizes current = Some (Raise ValueError)).
Proof.
  split.
  - intros Hd Hs ds k' HP. unfold randomise_dumbbells_periodic. rewrite HP.
    destruct sizes as [|r sizes]; [congruence|]. cbn [places_periodic] in HP.
    destruct (place_periodic rand lo hi dx theta phi fuel k r current []) as [[[b1 b2] k1]|] eqn:E; [|discriminate].
    destruct (places_periodic rand lo hi dx theta phi fuel k1 sizes current _) as [[qs k2]|]; [|discriminate]. injection HP as <- <-.
    assert (S2 : step dx theta phi b1 b2).
    { clear - E. revert k E. induction fuel as [|fu IH]; intros k E; [discriminate|]. cbn [place_periodic] in E.
      destruct (Nat.eqb _ 0); [|apply IH in E; exact E].
      destruct (second_periodic _ _ _ _ _ _ 100 _ _ _ _ _ _) as [[b|] k3] eqn:S2; [|apply IH in E; exact E].
      injection E as <- <- <-. apply secondP_props in S2. tauto. }
    destruct S2 as [t [f [_ [_ H3]]]].
    match goal with |- context [some_distance ?l] => set (beads := l) end.
    rewrite (some_distance_two beads 0%nat (S (length qs))); [reflexivity| | |].
    + unfold beads. simpl. lia.
    + unfold beads. rewrite app_length. cbn [length map]. rewrite !map_length. lia.
    + unfold beads. rewrite app_nth2 by (cbn [length map]; rewrite map_length; lia). cbn [length map]. rewrite map_length, Nat.sub_diag.
      cbn [app nth fst snd].
      assert (P : 0 < Rabs dx) by (apply Rabs_pos_lt; exact Hd). apply Rlt_le_trans with (1 := P). unfold dist3, vadd, vsub, vscal. rewrite !H3.
      unfold direction. cbn [v3]. rewrite <- sqrt_Rsqr_abs. apply sqrt_le_1_alt. unfold Rsqr.
      apply Rle_trans with (dx * dx * (sin t * cos f * (sin t * cos f) + sin t * sin f * (sin t * sin f) + cos t * cos t)); [rewrite direction_unit; lra|].
      apply Req_le. field.
  - intros ->. reflexivity.
Qed.
Print Assumptions C79_returns.

(** (Finding) The counter of overlaps is not reset between the hundred tries for
    the second bead, so after one that overlaps the rest are in vain. *)
Theorem C79_tries_in_vain rand lo hi dx theta phi tries k too_close bead1 r current beads :
  (0 < too_close)%nat ->
  fst (second_periodic rand lo hi dx theta phi tries k too_close bead1 r current beads) = None.
Proof. intros C. apply secondP_wasted. lia. Qed.
Print Assumptions C79_tries_in_vain.

(** ** Example: a flat box with a sphere; the dumbbell points to negative y. *)
Definition C79_lo : vec := v3 0 0 0.
Definition C79_hi : vec := v3 10 0 10.
Lemma C79_run r current : (forall m n r' p', (-1 <= m <= 1)%Z -> (-1 <= n <= 1)%Z -> In (r', p') current ->
    apart r (v3 0 0 0) r' (image C79_lo C79_hi p' m n) /\ apart r (v3 0 (-2) 0) r' (image C79_lo C79_hi p' m n)) ->
  exists ds k', randomise_dumbbells_periodic (fun _ => 0) C79_lo C79_hi 2 (Fixed (- (PI / 2))) (Fixed (PI / 2)) 1 0 [r] current = Some (Ok (ds, k')) /\
    length ds = 1%nat /\ snd (fst (nth 0 ds (v3 0 0 0, v3 0 0 0, false))) 1%nat < 0.
Proof.
  intros F. set (b1 := random_point_in_box (fun _ => 0) C79_lo C79_hi 0).
  set (b2 := vadd b1 (vscal 2 (v3 (sin (- (PI / 2)) * cos (PI / 2)) (sin (- (PI / 2)) * sin (PI / 2)) (cos (- (PI / 2)))))).
  assert (B1 : forall i, (i < 3)%nat -> b1 i = v3 0 0 0 i).
  { intros i Hi. unfold b1, random_point_in_box, C79_lo, C79_hi. idx3 Hi; cbn [v3]; ring. }
  assert (B2 : forall i, (i < 3)%nat -> b2 i = v3 0 (-2) 0 i).
  { intros i Hi. unfold b2, vadd, vscal. rewrite B1 by exact Hi. rewrite sin_neg, cos_neg, sin_PI2, cos_PI2. idx3 Hi; cbn [v3]; ring. }
  assert (C1 : count_images C79_lo C79_hi 0 b1 r current [] = 0%nat).
  { apply count_images_zero. split; [reflexivity|]. split; [|intros ? ? ? ? ? ? []]. intros r' p' m n Hm Hn I. destruct (F m n r' p' Hm Hn I) as [F1 _].
    unfold apart in *. rewrite (dist_ext3 b1 _ (v3 0 0 0) (image C79_lo C79_hi p' m n)); [exact F1|]. intros i Hi. rewrite B1 by exact Hi. reflexivity. }
  assert (C2 : count_images C79_lo C79_hi 0 b2 r current [] = 0%nat).
  { apply count_images_zero. split; [reflexivity|]. split; [|intros ? ? ? ? ? ? []]. intros r' p' m n Hm Hn I. destruct (F m n r' p' Hm Hn I) as [_ F1].
    unfold apart in *. rewrite (dist_ext3 b2 _ (v3 0 (-2) 0) (image C79_lo C79_hi p' m n)); [exact F1|]. intros i Hi. rewrite B2 by exact Hi. reflexivity. }
  assert (P : exists w fl, places_periodic (fun _ => 0) C79_lo C79_hi 2 (Fixed (- (PI / 2))) (Fixed (PI / 2)) 1 0 [r] current [] = Some ([(w, vsub b2 b1, fl)], 3%nat)).
  { cbn [places_periodic place_periodic]. fold b1. rewrite C1. cbn [Nat.eqb].
    assert (S2 : forall t, second_periodic (fun _ => 0) C79_lo C79_hi 2 (Fixed (- (PI / 2))) (Fixed (PI / 2)) (S t) (0 + 3) 0 b1 r current [] = (Some b2, 3%nat)).
    { intros t. cbn [second_periodic draw]. fold b2. rewrite C2. reflexivity. }
    rewrite (S2 99%nat). eexists. eexists. reflexivity. }
  destruct P as [w [fl P]]. exists [(w, vsub b2 b1, fl)], 3%nat. split.
  - apply C79_returns; [lra|discriminate|exact P].
  - split; [reflexivity|]. cbn [nth fst snd]. unfold vsub. rewrite B1, B2 by lia. cbn [v3]. lra.
Qed.
Example C79_example : exists ds k',
  randomise_dumbbells_periodic (fun _ => 0) C79_lo C79_hi 2 (Fixed (- (PI / 2))) (Fixed (PI / 2)) 1 0 [1] [(1, v3 5 0 5)] = Some (Ok (ds, k')) /\
  fst (fst (nth 0 ds (v3 0 0 0, v3 0 0 0, false))) 1%nat > 999990.
Proof.
  destruct (C79_run 1 [(1, v3 5 0 5)]) as [ds [k' [Hr [Hl Hn]]]].
  { intros m n r' p' Hm Hn [E|[]]. injection E as <- <-.
    assert (X : 5 <= Rabs (0 - (5 + IZR m * 10))).
    { assert (m = -1 \/ m = 0 \/ m = 1)%Z as [->|[->| ->]] by lia; unfold Rabs; destruct (Rcase_abs _); lra. }
    split; unfold apart; apply Rle_trans with 5; try lra; apply (dist_ge _ _ 0%nat); try lia; unfold image, C79_lo, C79_hi; cbn [v3];
      replace (10 - 0) with 10 by ring; exact X. }
  exists ds, k'. split; [exact Hr|].
  assert (R0 : forall n : nat, 0 <= (fun _ : nat => 0) n < 1) by (intros n; lra).
  assert (Bx : C79_lo 0%nat < C79_hi 0%nat /\ C79_lo 1%nat <= C79_hi 1%nat /\ C79_lo 2%nat < C79_hi 2%nat) by (unfold C79_lo, C79_hi; cbn [v3]; lra).
  rewrite (C79_flat_box_refuted _ _ _ _ _ _ _ _ _ _ ds k' R0 Bx Hr 0%nat); [|reflexivity| |lia|exact Hn].
  - destruct (C79_placed _ _ _ _ _ _ _ _ _ _ ds k' R0 Bx Hr) as [_ [_ [D _]]]. destruct (D 0%nat ltac:(lia)) as [t [f [Ht [Hf D2]]]].
    rewrite D2, Ht, Hf. unfold C79_lo. cbn [v3]. rewrite sin_neg, sin_PI2. lra.
  - rewrite Rabs_pos_eq; lra.
Qed.
(** Two dumbbells along z in a flat box, with a sphere: nothing is displaced, and
    the hypotheses of [C79_apart] hold. *)
Lemma C79_place_now rand lo hi dx t f fuel k r current beads :
  let b1 := random_point_in_box rand lo hi k in
  let b2 := vadd b1 (vscal dx (v3 (sin t * cos f) (sin t * sin f) (cos t))) in
  freeI lo hi r b1 current -> freeI lo hi r b1 beads -> freeI lo hi r b2 current -> freeI lo hi r b2 beads ->
  place_periodic rand lo hi dx (Fixed t) (Fixed f) (S fuel) k r current beads = Some (b1, b2, k + 3)%nat.
Proof.
  intros b1 b2 F1 F2 F3 F4. cbn [place_periodic]. fold b1.
  assert (C1 : count_images lo hi 0 b1 r current beads = 0%nat) by (apply count_images_zero; auto).
  assert (C2 : count_images lo hi 0 b2 r current beads = 0%nat) by (apply count_images_zero; auto).
  rewrite C1. cbn [Nat.eqb].
  assert (S2 : forall n, second_periodic rand lo hi dx (Fixed t) (Fixed f) (S n) (k + 3) 0 b1 r current beads = (Some b2, k + 3)%nat).
  { intros n. cbn [second_periodic draw]. fold b2. rewrite C2. reflexivity. }
  rewrite (S2 99%nat). reflexivity.
Qed.
Definition C79_rand (n : nat) : R := if Nat.ltb n 3 then 0 else 1 / 2.
Definition C79_hi' : vec := v3 20 0 20.
Lemma C79_far p r r' q m n i : (i < 3)%nat -> r + r' <= 4 -> 4 <= Rabs (p i - image C79_lo C79_hi' q m n i) -> apart r p r' (image C79_lo C79_hi' q m n).
Proof. intros Hi A B. unfold apart. apply Rle_trans with 4; [exact A|]. exact (dist_ge _ _ i 4 Hi B). Qed.
Lemma C79_gap x y m : (-1 <= m <= 1)%Z -> 4 <= x - y <= 16 -> 4 <= Rabs (x - (y + IZR m * (20 - 0))) /\ 4 <= Rabs (y - (x + IZR m * (20 - 0))).
Proof. intros Hm Hxy. assert (m = -1 \/ m = 0 \/ m = 1)%Z as [->|[->| ->]] by lia; split; unfold Rabs; destruct (Rcase_abs _); lra. Qed.
Example C79_example_apart : exists ds k',
  randomise_dumbbells_periodic C79_rand C79_lo C79_hi' 3 (Fixed 0) (Fixed 0) 1 0 [1; 1] [(1, v3 5 0 5)] = Some (Ok (ds, k')) /\
  forall b c m n, apart 1 (bead b (fst (nth 0 ds (v3 0 0 0, v3 0 0 0, false)))) 1 (image C79_lo C79_hi' (bead c (fst (nth 1 ds (v3 0 0 0, v3 0 0 0, false)))) m n).
Proof.
  set (D := v3 (sin 0 * cos 0) (sin 0 * sin 0) (cos 0)).
  set (p1 := random_point_in_box C79_rand C79_lo C79_hi' 0). set (p2 := vadd p1 (vscal 3 D)).
  set (q1 := random_point_in_box C79_rand C79_lo C79_hi' 3). set (q2 := vadd q1 (vscal 3 D)).
  assert (X1 : p1 0%nat = 0 /\ p2 0%nat = 0 /\ q1 0%nat = 10 /\ q2 0%nat = 10 /\ p1 1%nat = 0 /\ p2 1%nat = 0 /\ q1 1%nat = 0 /\ q2 1%nat = 0).
  { unfold p2, q2, p1, q1, vadd, vscal, random_point_in_box, C79_rand, C79_lo, C79_hi', D. cbn [v3 Nat.ltb Nat.leb Nat.add]. rewrite sin_0, cos_0. repeat split; field. }
  destruct X1 as [P1 [P2 [Q1 [Q2 [Y1 [Y2 [Y3 Y4]]]]]]].
  assert (G : forall x y m n (r r' : R) p' q', p' 0%nat = x -> q' 0%nat = y -> r = 1 -> r' = 1 -> (-1 <= m <= 1)%Z -> (4 <= x - y <= 16 \/ 4 <= y - x <= 16) -> apart r p' r' (image C79_lo C79_hi' q' m n)).
  { intros x y m n r r' p' q' Ex Ey -> -> Hm Hxy. apply (C79_far _ _ _ _ _ _ 0%nat); [lia|lra|]. unfold image, C79_lo, C79_hi'. cbn [v3]. rewrite Ex, Ey.
    destruct Hxy as [Hxy|Hxy]; [apply (proj1 (C79_gap x y m Hm Hxy))|apply (proj2 (C79_gap y x m Hm Hxy))]. }
  assert (HP : exists ds k', places_periodic C79_rand C79_lo C79_hi' 3 (Fixed 0) (Fixed 0) 1 0 [1; 1] [(1, v3 5 0 5)] [] = Some (ds, k')
    /\ map fst ds = [(wrap C79_lo C79_hi' (vscal (1 / 2) (vadd p1 p2)), vsub p2 p1); (wrap C79_lo C79_hi' (vscal (1 / 2) (vadd q1 q2)), vsub q2 q1)]).
  { eexists. eexists. split.
    - cbn [places_periodic].
      rewrite (C79_place_now _ _ _ _ _ _ 0); fold D p1 p2; [| | intros ? ? ? ? ? ? [] | |intros ? ? ? ? ? ? []].
      2,3: intros r' p' m n Hm Hn [E|[]]; injection E as <- <-; eapply G; try eassumption; try reflexivity; cbn [v3]; lra.
      rewrite (C79_place_now _ _ _ _ _ _ 0); cbn [Nat.add]; fold D q1 q2; [reflexivity| | | |].
      1,3: intros r' p' m n Hm Hn [E|[]]; injection E as <- <-; eapply G; try eassumption; try reflexivity; cbn [v3]; lra.
      all: intros r' p' m n Hm Hn [E|[E|[]]]; injection E as <- <-; eapply G; try eassumption; try reflexivity; cbn [v3]; lra.
    - reflexivity. }
  destruct HP as [ds [k' [HP HM]]]. exists ds, k'.
  assert (Hrun : randomise_dumbbells_periodic C79_rand C79_lo C79_hi' 3 (Fixed 0) (Fixed 0) 1 0 [1; 1] [(1, v3 5 0 5)] = Some (Ok (ds, k'))).
  { apply C79_returns; [lra|discriminate|exact HP]. }
  split; [exact Hrun|].
  assert (R0 : forall n : nat, 0 <= C79_rand n < 1) by (intros n; unfold C79_rand; destruct (Nat.ltb n 3); lra).
  assert (Bx : C79_lo 0%nat < C79_hi' 0%nat /\ C79_lo 1%nat <= C79_hi' 1%nat /\ C79_lo 2%nat < C79_hi' 2%nat) by (unfold C79_lo, C79_hi'; cbn [v3]; lra).
  assert (A3 : Rabs 3 = 3) by (apply Rabs_pos_eq; lra).
  assert (L : length ds = 2%nat) by (apply (f_equal (@length _)) in HM; rewrite map_length in HM; exact HM).
  destruct ds as [|[x1 f1] [|[x2 f2] [|]]]; try discriminate. cbn [map fst] in HM. injection HM as -> ->.
  destruct (C79_apart _ _ _ _ _ _ _ _ _ _ _ k' R0 Bx Hrun) as [AP _].
  - rewrite A3. unfold C79_lo, C79_hi'. cbn [v3]. lra.
  - intros i Hi. rewrite A3. unfold C79_lo, C79_hi'. cbn [length] in Hi.
    assert (W : forall u v : vec, u 1%nat = 0 -> v 1%nat = 0 -> wrap (v3 0 0 0) (v3 20 0 20) (vscal (1 / 2) (vadd u v)) 1%nat = 0).
    { intros u v Hu Hv. unfold wrap, vscal, vadd. cbn [v3]. rewrite Hu, Hv. replace (1 / 2 * (0 + 0) - 0) with 0 by field. unfold rmod.
      replace (0 / 1000000) with 0 by field. pose proof (base_Int_part 0) as [I1 I2].
      assert (Int_part 0 = 0%Z) as ->; [|ring]. assert (-1 < IZR (Int_part 0) < 1) as [J1 J2] by lra. apply lt_IZR in J1, J2. lia. }
    destruct i as [|[|]]; [| |lia]; cbn [nth fst]; unfold C79_lo, C79_hi'; rewrite W by assumption; cbn [v3]; lra.
  - intros r r' [<-|[<-|[]]] [<-|[<-|[<-|[]]]]; rewrite A3; unfold C79_lo, C79_hi'; cbn [v3 fst]; lra.
  - intros b c m n. apply (AP 0%nat 1%nat b c m n); cbn [length]; lia.
Qed.
