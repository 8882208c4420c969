(** C39: random placement of spheres and dumbbells. *)
From Coq Require Import Reals List Arith Bool Lia Lra.
From Verif Require Import Base Py Model_Mob Model_Close Model_Place Spec_Place Proof_Place.
Import ListNotations.
Local Open Scope R_scope.

Notation "l '.[' i ']'" := (nth i l (v3 0 0 0)) (at level 1, format "l .[ i ]").

(** Whatever the random numbers: the new spheres are inside the box and overlap
    neither each other nor the current spheres. *)
Theorem C39_spheres rand lo hi fuel k sizes current ps k' :
  (forall n, 0 <= rand n < 1) -> (forall i, (i < 3)%nat -> lo i <= hi i) ->
  randomise_spheres rand lo hi fuel k sizes current = Some (Ok (ps, k')) ->
  length ps = length sizes /\
  (forall i, (i < length ps)%nat -> in_box lo hi ps.[i]) /\
  (forall i r p, (i < length ps)%nat -> In (r, p) current -> apart (nth i sizes 0) ps.[i] r p) /\
  (forall i j, (i < length ps)%nat -> (j < length ps)%nat -> i <> j -> apart (nth i sizes 0) ps.[i] (nth j sizes 0) ps.[j]).
Proof.
  intros Hr Hb H. unfold randomise_spheres in H.
  destruct (place_spheres rand lo hi fuel k sizes current) as [[qs k1]|] eqn:E; [|discriminate].
  destruct (some_distance qs); [|discriminate]. injection H as -> ->.
  apply places_turn in E. destruct (turn_props rand lo hi Hr Hb _ _ _ _ _ E) as [L [A B]].
  split; [exact L|]. split; [intros i Hi; apply A, Hi|]. split; [intros i r p Hi I; apply (A i Hi), I|].
  intros i j Hi Hj N. destruct (Nat.lt_trichotomy i j) as [C|[C|C]]; [|contradiction|].
  - apply apart_sym, B; assumption.
  - apply B; assumption.
Qed.
Print Assumptions C39_spheres.

(** Each sphere gets the first of the random points which is free, and the
    loops end as soon as there is one. *)
Theorem C39_spheres_first_free rand lo hi k sizes current ps k' :
  (exists fuel, place_spheres rand lo hi fuel k sizes current = Some (ps, k'))
  <-> in_turn (random_point_in_box rand lo hi) k sizes current ps k'.
Proof.
  split.
  - intros [fuel H]. exact (places_turn rand lo hi fuel sizes k current ps k' H).
  - intros H. destruct (turn_places rand lo hi k sizes current ps k' H) as [n Hn]. exists n. apply Hn, Nat.le_refl.
Qed.
Print Assumptions C39_spheres_first_free.

(** Two or more spheres of positive size: the function returns when its loops
    have ended. *)
Theorem C39_spheres_return rand lo hi fuel k sizes current ps k' :
  (2 <= length sizes)%nat -> (forall r, In r sizes -> 0 < r) ->
  (forall n, 0 <= rand n < 1) -> (forall i, (i < 3)%nat -> lo i <= hi i) ->
  place_spheres rand lo hi fuel k sizes current = Some (ps, k') ->
  randomise_spheres rand lo hi fuel k sizes current = Some (Ok (ps, k')).
Proof.
  intros H2 Hpos Hr Hb H. unfold randomise_spheres. rewrite H.
  apply places_turn in H. destruct (turn_props rand lo hi Hr Hb _ _ _ _ _ H) as [L [_ B]].
  rewrite (some_distance_two ps 0 1); [reflexivity|lia|lia|].
  specialize (B 0%nat 1%nat ltac:(lia) ltac:(lia)). unfold apart in B.
  pose proof (Hpos (nth 0 sizes 0) ltac:(apply nth_In; lia)). pose proof (Hpos (nth 1 sizes 0) ltac:(apply nth_In; lia)). lra.
Qed.
Print Assumptions C39_spheres_return.

(** (Finding) For a single new sphere, or none, the function never returns. *)
Theorem C39_single_sphere_refuted rand lo hi fuel k sizes current :
  (length sizes <= 1)%nat ->
  randomise_spheres rand lo hi fuel k sizes current = None \/ randomise_spheres rand lo hi fuel k sizes current = Some (Raise ValueError).
Proof.
  intros H. unfold randomise_spheres. destruct (place_spheres rand lo hi fuel k sizes current) as [[ps k1]|] eqn:E; [|auto].
  right. rewrite some_distance_one; [reflexivity|].
  assert (L : forall k l ps k1, place_spheres rand lo hi fuel k sizes l = Some (ps, k1) -> length ps = length sizes).
  { clear. induction sizes as [|r sizes IH]; intros k l ps k1 H; cbn [place_spheres] in H; [injection H as <- <-; reflexivity|].
    destruct (place_sphere _ _ _ _ _ _ _) as [[p k']|]; [|discriminate].
    destruct (place_spheres rand lo hi fuel k' sizes (l ++ [(r, p)])) as [[qs k2]|] eqn:E; [|discriminate].
    injection H as <- <-. simpl. f_equal. exact (IH _ _ _ _ E). }
  rewrite (L _ _ _ _ E). exact H.
Qed.
Print Assumptions C39_single_sphere_refuted.

(** Both beads of every dumbbell are inside the box, overlap neither current
    spheres nor beads of other dumbbells, and are dx apart, in the direction of
    the angles if these are given. *)
Theorem C39_dumbbells rand lo hi dx theta phi fuel k sizes current ds k' :
  (forall n, 0 <= rand n < 1) -> (forall i, (i < 3)%nat -> lo i <= hi i) ->
  randomise_dumbbells rand lo hi dx theta phi fuel k sizes current = Some (Ok (ds, k')) ->
  let d i := nth i ds (v3 0 0 0, v3 0 0 0) in
  length ds = length sizes /\
  (forall i b, (i < length ds)%nat -> in_box lo hi (bead b (d i))) /\
  (forall i b r p, (i < length ds)%nat -> In (r, p) current -> apart (nth i sizes 0) (bead b (d i)) r p) /\
  (forall i j b c, (i < length ds)%nat -> (j < length ds)%nat -> i <> j ->
     apart (nth i sizes 0) (bead b (d i)) (nth j sizes 0) (bead c (d j))) /\
  (forall i, (i < length ds)%nat -> exists t f,
     (match theta with Fixed x => t = x | Random => True end) /\ (match phi with Fixed x => f = x | Random => True end) /\
     forall n, snd (d i) n = dx * v3 (sin t * cos f) (sin t * sin f) (cos t) n) /\
  (forall i, (i < length ds)%nat -> dist3 (bead true (d i)) (bead false (d i)) = Rabs dx).
Proof.
  intros Hr Hb H d. unfold randomise_dumbbells in H.
  destruct (place_dumbbells rand lo hi dx theta phi fuel k sizes current []) as [[qs k1]|] eqn:E; [|discriminate].
  destruct (some_distance _) in H; [|discriminate]. injection H as -> ->.
  destruct (place_dumbbells_good rand lo hi Hr Hb dx theta phi fuel sizes _ _ _ _ _ E) as [L [A B]].
  rewrite app_nil_r in A.
  assert (Dir : forall i, (i < length ds)%nat -> exists t f, angle_ok theta t /\ angle_ok phi f /\ forall n, snd (d i) n = dx * direction t f n).
  { intros i Hi. pose proof (A i Hi) as G. unfold d. destruct (nth i ds (v3 0 0 0, v3 0 0 0)) as [x e].
    exact (good_length lo hi dx theta phi _ _ _ _ G). }
  split; [exact L|]. split; [intros i b Hi; destruct (A i Hi) as [A1 [A2 _]]; destruct b; assumption|].
  split; [intros i b r p Hi I; destruct (A i Hi) as [_ [_ [A1 [A2 _]]]]; destruct b; [apply A2|apply A1]; exact I|].
  split; [|split; [exact Dir|]].
  - intros i j b c Hi Hj N. destruct (Nat.lt_trichotomy i j) as [C|[C|C]]; [|contradiction|].
    + apply apart_sym, B; assumption.
    + apply B; assumption.
  - intros i Hi. destruct (Dir i Hi) as [t [f [_ [_ D]]]]. unfold dist3, bead.
    rewrite !D. unfold direction. cbn [v3].
    replace (_ + _ + _) with (dx * dx * (sin t * cos f * (sin t * cos f) + sin t * sin f * (sin t * sin f) + cos t * cos t)) by field.
    rewrite direction_unit, Rmult_1_r. apply sqrt_Rsqr_abs.
Qed.
Print Assumptions C39_dumbbells.

(** (Finding) The counter of overlaps is not reset between the hundred tries for
    the second bead, so after one that overlaps the rest are in vain. *)
Theorem C39_tries_in_vain rand lo hi dx theta phi tries k too_close bead1 r current beads :
  (0 < too_close)%nat ->
  fst (second_bead rand lo hi dx theta phi tries k too_close bead1 r current beads) = None.
Proof. intros H. apply second_wasted. lia. Qed.
Print Assumptions C39_tries_in_vain.

(** ** Examples *)
Definition C39_rand (n : nat) : R := if Nat.ltb n 6 then 0 else 1 / 2.
Definition C39_lo : vec := v3 0 0 0.
Definition C39_hi : vec := v3 10 10 10.
Lemma C39_ge a b : 0 <= b -> b ^ 2 <= a -> b <= sqrt a.
Proof. intros Hb H. rewrite <- (sqrt_pow2 b Hb). apply sqrt_le_1_alt, H. Qed.
Lemma C39_lt a b : 0 < b -> a < b ^ 2 -> sqrt a < b.
Proof.
  intros Hb H. destruct (Rle_dec 0 a) as [Ha|Ha].
  - rewrite <- (sqrt_pow2 b) by lra. apply sqrt_lt_1; [exact Ha|nra|exact H].
  - rewrite sqrt_neg_0 by lra. exact Hb.
Qed.
(** Two spheres; the second random point is refused. *)
Example C39_example_spheres :
  (forall n, 0 <= C39_rand n < 1) /\ (forall i, (i < 3)%nat -> C39_lo i <= C39_hi i) /\
  exists fuel ps, randomise_spheres C39_rand C39_lo C39_hi fuel 0 [1; 2] [(1, v3 10 10 10)] = Some (Ok (ps, 9%nat)) /\
    ps.[0] 0%nat = 0 /\ ps.[1] 0%nat = 5.
Proof.
  split; [intros n; unfold C39_rand; destruct (Nat.ltb n 6); lra|].
  split; [intros i Hi; idx3 Hi; cbn; lra|].
  assert (Hr : forall n, 0 <= C39_rand n < 1) by (intros n; unfold C39_rand; destruct (Nat.ltb n 6); lra).
  assert (Hb : forall i, (i < 3)%nat -> C39_lo i <= C39_hi i) by (intros i Hi; idx3 Hi; cbn; lra).
  assert (T : in_turn (random_point_in_box C39_rand C39_lo C39_hi) 0 [1; 2] [(1, v3 10 10 10)]
    [random_point_in_box C39_rand C39_lo C39_hi 0; random_point_in_box C39_rand C39_lo C39_hi 6] 9).
  { eapply it_cons.
    - apply (ff_here _ _ _ 0%nat). intros r p [E|[]]. injection E as <- <-. unfold apart, dist3, random_point_in_box, C39_rand, C39_lo, C39_hi. cbn.
      apply C39_ge; lra.
    - eapply it_cons; [|apply it_nil]. apply ff_later.
      + intros F. specialize (F 1 _ (or_intror (or_introl eq_refl))). revert F.
        unfold apart, dist3, random_point_in_box, C39_rand, C39_lo, C39_hi. cbn. intros F.
        pose proof (C39_lt ((0 + 0 * (10 - 0) - (0 + 0 * (10 - 0))) * ((0 + 0 * (10 - 0) - (0 + 0 * (10 - 0))) * 1) + (0 + 0 * (10 - 0) - (0 + 0 * (10 - 0))) * ((0 + 0 * (10 - 0) - (0 + 0 * (10 - 0))) * 1) + (0 + 0 * (10 - 0) - (0 + 0 * (10 - 0))) * ((0 + 0 * (10 - 0) - (0 + 0 * (10 - 0))) * 1)) 3 ltac:(lra) ltac:(lra)). lra.
      + apply (ff_here _ _ _ 6%nat). intros r p [E|[E|[]]]; injection E as <- <-; unfold apart, dist3, random_point_in_box, C39_rand, C39_lo, C39_hi; cbn; apply C39_ge; lra. }
  destruct (turn_places C39_rand C39_lo C39_hi _ _ _ _ _ T) as [n Hn]. exists n. eexists. split.
  - apply C39_spheres_return; [simpl; lia|intros r [<-|[<-|[]]]; lra|exact Hr|exact Hb|]. apply Hn, Nat.le_refl.
  - cbn [nth]. unfold random_point_in_box, C39_rand, C39_lo, C39_hi. cbn. split; lra.
Qed.
(** One dumbbell pointing along z (fixed angles). *)
Example C39_example_dumbbells :
  exists ds k', randomise_dumbbells C39_rand C39_lo C39_hi 3 (Fixed 0) (Fixed 0) 1 0 [1] [(1, v3 10 10 10)] = Some (Ok (ds, k')).
Proof.
  unfold randomise_dumbbells. cbn [place_dumbbells place_dumbbell].
  assert (Z1 : count_both 0 (random_point_in_box C39_rand C39_lo C39_hi 0) 1 [(1, v3 10 10 10)] [] = 0%nat).
  { apply count_both_zero. split; [reflexivity|]. split; [|intros ? ? []]. intros r p [E|[]]. injection E as <- <-.
    unfold apart, dist3, random_point_in_box, C39_rand, C39_lo, C39_hi. cbn. apply C39_ge; lra. }
  rewrite Z1. cbn [Nat.eqb].
  set (b2 := vadd (random_point_in_box C39_rand C39_lo C39_hi 0) (vscal 3 (v3 (sin 0 * cos 0) (sin 0 * sin 0) (cos 0)))).
  assert (B0 : b2 0%nat = 0 /\ b2 1%nat = 0 /\ b2 2%nat = 3).
  { unfold b2, vadd, vscal, random_point_in_box, C39_rand, C39_lo, C39_hi. cbn. rewrite sin_0, cos_0. repeat split; ring. }
  destruct B0 as [B0 [B1 B2]].
  assert (S2 : forall n, second_bead C39_rand C39_lo C39_hi 3 (Fixed 0) (Fixed 0) (S n) (0 + 3) 0 (random_point_in_box C39_rand C39_lo C39_hi 0) 1 [(1, v3 10 10 10)] [] = (Some b2, 3%nat)).
  { intros n. cbn [second_bead draw]. fold b2.
    assert (I : inside_box C39_lo C39_hi b2 = true).
    { unfold inside_box. rewrite B0, B1, B2. unfold Rleb, C39_lo, C39_hi. cbn [v3].
      repeat match goal with |- context [Rle_dec ?a ?b] => destruct (Rle_dec a b); [|exfalso; lra] end. reflexivity. }
    rewrite I.
    assert (Z : count_both 0 b2 1 [(1, v3 10 10 10)] [] = 0%nat).
    { apply count_both_zero. split; [reflexivity|]. split; [|intros ? ? []]. intros r p [E|[]]. injection E as <- <-.
      unfold apart, dist3. rewrite B0, B1, B2. cbn [v3]. apply C39_ge; lra. }
    rewrite Z. reflexivity. }
  rewrite (S2 99%nat). clear S2. eexists. eexists.
  rewrite (some_distance_two _ 0 1); [reflexivity|simpl; lia|simpl; lia|].
  cbn [map app nth fst snd]. apply Rlt_le_trans with 3; [lra|]. unfold dist3, vadd, vsub, vscal. rewrite B0, B1, B2.
  unfold random_point_in_box, C39_rand, C39_lo, C39_hi. cbn. apply C39_ge; lra.
Qed.
