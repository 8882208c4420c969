From Coq Require Import Reals List Arith Bool Lia Lra.
From Verif Require Import Base Py Model_Mob Model_Close Model_Place Spec_Place.
Import ListNotations.
Local Open Scope R_scope.

Lemma norm_dist p q : norm (vsub p q) = dist3 p q.
Proof. reflexivity. Qed.
Lemma dist_sym p q : dist3 p q = dist3 q p.
Proof. unfold dist3. f_equal. ring. Qed.
Lemma apart_sym r p r' p' : apart r p r' p' -> apart r' p' r p.
Proof. unfold apart. rewrite dist_sym. lra. Qed.
Lemma overlaps_false p q r r' : overlaps p q r r' = false <-> apart r p r' q.
Proof. unfold overlaps, apart, Rltb. rewrite norm_dist. destruct (Rlt_dec _ _); split; intros; try discriminate; try reflexivity; lra. Qed.

Lemma count_mono c p r l : (c <= count_close c p r l)%nat.
Proof.
  revert c. induction l as [|s l IH]; intros c; [apply Nat.le_refl|]. cbn [count_close fold_left].
  destruct (overlaps _ _ _ _); [|apply IH]. etransitivity; [|apply IH]. lia.
Qed.
Lemma count_zero p r l : count_close 0 p r l = 0%nat <-> free r p l.
Proof.
  induction l as [|[r' q] l IH]; [split; [intros _ r' q []|reflexivity]|]. unfold count_close in *. cbn [fold_left fst snd].
  destruct (overlaps p q r r') eqn:E.
  - split; intros H.
    + pose proof (count_mono 1 p r l) as M. unfold count_close in M. lia.
    + assert (A : apart r p r' q) by (apply H; left; reflexivity). apply overlaps_false in A. congruence.
  - apply overlaps_false in E. split.
    + intros H r2 p2 [I|I]; [injection I as <- <-; exact E|]. apply IH in H. exact (H _ _ I).
    + intros H. apply IH. intros r2 p2 I. apply H. right. exact I.
Qed.
Lemma count_zero_c c p r l : count_close c p r l = 0%nat <-> c = 0%nat /\ free r p l.
Proof.
  split.
  - intros H. pose proof (count_mono c p r l). assert (c = 0%nat) by lia. subst. split; [reflexivity|apply count_zero, H].
  - intros [-> H]. apply count_zero, H.
Qed.
Lemma count_both_zero c p r l m : count_both c p r l m = 0%nat <-> c = 0%nat /\ free r p l /\ free r p m.
Proof.
  unfold count_both. cbv zeta. destruct (Nat.eqb_spec (count_close c p r l) 0) as [E|E].
  - rewrite count_zero_c. apply count_zero_c in E. destruct E as [-> F].
    assert (Z : count_close 0 p r l = 0%nat) by (apply count_zero; exact F). rewrite Z. tauto.
  - split; [contradiction|]. intros [-> [F _]]. apply count_zero in F. contradiction.
Qed.

Section R.
Variable rand : nat -> R.
Variables lo hi : vec.
Hypothesis Hrand : forall k, 0 <= rand k < 1.
Hypothesis Hbox : forall i, (i < 3)%nat -> lo i <= hi i.
Notation point := (random_point_in_box rand lo hi).

Lemma point_in k : in_box lo hi (point k).
Proof. intros i Hi. unfold random_point_in_box. pose proof (Hrand (k + i)). pose proof (Hbox i Hi). split; nra. Qed.

Lemma place_first fuel k r l p k' : place_sphere rand lo hi fuel k r l = Some (p, k') -> first_free point r l k p k'.
Proof.
  revert k. induction fuel as [|fuel IH]; intros k H; [discriminate|]. cbn [place_sphere] in H.
  destruct (Nat.eqb_spec (count_close 0 (point k) r l) 0) as [E|E].
  - injection H as <- <-. apply ff_here. apply count_zero, E.
  - apply ff_later; [rewrite <- count_zero; exact E|apply IH, H].
Qed.
Lemma first_place r l k p k' : first_free point r l k p k' -> exists n, forall fuel, (n <= fuel)%nat -> place_sphere rand lo hi fuel k r l = Some (p, k').
Proof.
  induction 1 as [k F|k p k' F _ [n IH]].
  - exists 1%nat. intros fuel Hf. destruct fuel; [lia|]. cbn [place_sphere]. apply count_zero in F. rewrite F. reflexivity.
  - exists (S n). intros fuel Hf. destruct fuel; [lia|]. cbn [place_sphere]. rewrite <- count_zero in F.
    destruct (Nat.eqb_spec (count_close 0 (point k) r l) 0); [contradiction|]. apply IH. lia.
Qed.
Lemma first_props r l k p k' : first_free point r l k p k' -> in_box lo hi p /\ free r p l.
Proof. induction 1 as [k F|]; [split; [apply point_in|exact F]|assumption]. Qed.

Lemma places_turn fuel sizes : forall k l ps k', place_spheres rand lo hi fuel k sizes l = Some (ps, k') -> in_turn point k sizes l ps k'.
Proof.
  induction sizes as [|r sizes IH]; intros k l ps k' H; cbn [place_spheres] in H; [injection H as <- <-; constructor|].
  destruct (place_sphere rand lo hi fuel k r l) as [[p k1]|] eqn:E; [|discriminate].
  destruct (place_spheres rand lo hi fuel k1 sizes (l ++ [(r, p)])) as [[qs k2]|] eqn:E2; [|discriminate].
  injection H as <- <-. econstructor; [eapply place_first; exact E|apply IH, E2].
Qed.
Lemma turn_places k sizes l ps k' : in_turn point k sizes l ps k' -> exists n, forall fuel, (n <= fuel)%nat -> place_spheres rand lo hi fuel k sizes l = Some (ps, k').
Proof.
  induction 1 as [k l|k r sizes l p k1 ps k2 F _ [n IH]]; [exists 0%nat; reflexivity|].
  destruct (first_place _ _ _ _ _ F) as [m Hm]. exists (Nat.max n m). intros fuel Hf. cbn [place_spheres].
  rewrite Hm, IH by lia. reflexivity.
Qed.

Lemma turn_props k sizes l ps k' : in_turn point k sizes l ps k' ->
  length ps = length sizes /\
  (forall i, (i < length ps)%nat -> in_box lo hi (nth i ps (v3 0 0 0)) /\ free (nth i sizes 0) (nth i ps (v3 0 0 0)) l) /\
  (forall i j, (i < j)%nat -> (j < length ps)%nat -> apart (nth j sizes 0) (nth j ps (v3 0 0 0)) (nth i sizes 0) (nth i ps (v3 0 0 0))).
Proof.
  induction 1 as [k l|k r sizes l p k1 ps k2 F _ [L [A B]]];
    [split; [reflexivity|split; [intros i Hi|intros i j Hi Hj]; simpl in *; lia]|].
  destruct (first_props _ _ _ _ _ F) as [F1 F2].
  split; [simpl; lia|]. split.
  - intros [|i] Hi; cbn [nth length] in *; [split; assumption|]. destruct (A i ltac:(lia)) as [A1 A2].
    split; [exact A1|]. intros r' p' I. apply A2. apply in_or_app. left. exact I.
  - intros [|i] [|j] Hij Hj; cbn [nth length] in *; try lia.
    + destruct (A j ltac:(lia)) as [_ A2]. apply A2. apply in_or_app. right. left. reflexivity.
    + apply B; lia.
Qed.

Lemma dist_pos_neq p q : 0 < dist3 p q -> norm (vsub p q) <> 0.
Proof. rewrite norm_dist. lra. Qed.
Lemma some_distance_two ps i j : (i < length ps)%nat -> (j < length ps)%nat -> 0 < dist3 (nth j ps (v3 0 0 0)) (nth i ps (v3 0 0 0)) -> some_distance ps = true.
Proof.
  intros Hi Hj H. unfold some_distance. apply existsb_exists. exists (nth i ps (v3 0 0 0)). split; [apply nth_In; exact Hi|].
  apply existsb_exists. exists (nth j ps (v3 0 0 0)). split; [apply nth_In; exact Hj|].
  destruct (Req_EM_T _ 0) as [E|]; [|reflexivity]. exfalso. exact (dist_pos_neq _ _ H E).
Qed.
Lemma dist_self p : dist3 p p = 0.
Proof. unfold dist3. replace (_ + _ + _) with 0 by ring. apply sqrt_0. Qed.
Lemma some_distance_one ps : (length ps <= 1)%nat -> some_distance ps = false.
Proof.
  intros H. destruct ps as [|p [|q ps]]; [reflexivity| |simpl in H; lia].
  unfold some_distance. cbn [existsb]. rewrite norm_dist, dist_self. destruct (Req_EM_T 0 0); [reflexivity|congruence].
Qed.

(** ** Dumbbells *)
Variables (dx : R) (theta phi : angle).
Definition direction (t f : R) : vec := v3 (sin t * cos f) (sin t * sin f) (cos t).

Lemma direction_unit t f : sin t * cos f * (sin t * cos f) + sin t * sin f * (sin t * sin f) + cos t * cos t = 1.
Proof.
  pose proof (sin2_cos2 t) as A. pose proof (sin2_cos2 f) as B. unfold Rsqr in *.
  transitivity (sin t * sin t * (sin f * sin f + cos f * cos f) + cos t * cos t); [ring|]. rewrite B. lra.
Qed.
Lemma inside_spec p : inside_box lo hi p = true -> in_box lo hi p.
Proof.
  unfold inside_box, Rleb. intros H.
  repeat match goal with H : context [Rle_dec ?a ?b] |- _ => destruct (Rle_dec a b); try discriminate end.
  intros i Hi. idx3 Hi; lra.
Qed.
Definition angle_ok (a : angle) (t : R) : Prop := match a with Random => True | Fixed x => t = x end.
Lemma draw_ok a s k : angle_ok a (fst (draw rand a s k)).
Proof. destruct a; simpl; auto. Qed.

Lemma second_props tries : forall k c b1 r cur beads b2 k', second_bead rand lo hi dx theta phi tries k c b1 r cur beads = (Some b2, k') ->
  c = 0%nat /\ in_box lo hi b2 /\ free r b2 cur /\ free r b2 beads /\
  exists t f, angle_ok theta t /\ angle_ok phi f /\ forall i, b2 i = b1 i + dx * direction t f i.
Proof.
  induction tries as [|tries IH]; intros k c b1 r cur beads b2 k' H; [discriminate|]. cbn [second_bead] in H.
  destruct (draw rand theta (PI * 2) k) as [t k1] eqn:Dt. destruct (draw rand phi PI k1) as [f k2] eqn:Df.
  pose proof (draw_ok theta (PI * 2) k) as Ot. rewrite Dt in Ot. pose proof (draw_ok phi PI k1) as Of. rewrite Df in Of. cbn [fst] in *.
  destruct (inside_box lo hi _) eqn:In_; [|apply IH in H; exact H].
  destruct (Nat.eqb_spec (count_both c (vadd b1 (vscal dx (v3 (sin t * cos f) (sin t * sin f) (cos t)))) r cur beads) 0) as [E|E].
  - injection H as <- <-. apply count_both_zero in E. destruct E as [E0 [E1 E2]]. split; [exact E0|].
    split; [apply inside_spec; exact In_|]. split; [exact E1|]. split; [exact E2|]. exists t, f. split; [exact Ot|]. split; [exact Of|]. reflexivity.
  - apply IH in H. destruct H as [H _]. contradiction.
Qed.
(** once a try fails because of an overlap, the others cannot succeed *)
Lemma second_wasted tries : forall k c b1 r cur beads, c <> 0%nat -> fst (second_bead rand lo hi dx theta phi tries k c b1 r cur beads) = None.
Proof.
  intros k c b1 r cur beads Hc. destruct (second_bead rand lo hi dx theta phi tries k c b1 r cur beads) as [[b2|] k'] eqn:E; [|reflexivity].
  apply second_props in E. destruct E as [E _]. contradiction.
Qed.

Definition good (r : R) (b1 b2 : vec) (l : list (R * vec)) : Prop :=
  in_box lo hi b1 /\ in_box lo hi b2 /\ free r b1 l /\ free r b2 l /\
  exists t f, angle_ok theta t /\ angle_ok phi f /\ forall i, b2 i = b1 i + dx * direction t f i.
Lemma place_dumbbell_good fuel : forall k r cur beads b1 b2 k', place_dumbbell rand lo hi dx theta phi fuel k r cur beads = Some (b1, b2, k') ->
  good r b1 b2 (cur ++ beads).
Proof.
  induction fuel as [|fuel IH]; intros k r cur beads b1 b2 k' H; [discriminate|]. cbn [place_dumbbell] in H.
  destruct (Nat.eqb_spec (count_both 0 (point k) r cur beads) 0) as [E|E]; [|apply IH in H; exact H].
  destruct (second_bead _ _ _ _ _ _ 100 _ _ _ _ _ _) as [[b|] k1] eqn:S2; [|apply IH in H; exact H].
  injection H as <- <- <-. apply count_both_zero in E. destruct E as [_ [E1 E2]].
  apply second_props in S2. destruct S2 as [_ [I2 [F1 [F2 X]]]].
  split; [apply point_in|]. split; [exact I2|].
  split; [|split; [|exact X]]; intros r' p' I; apply in_app_or in I; destruct I as [I|I]; [apply E1|apply E2|apply F1|apply F2]; exact I.
Qed.

Lemma bead_back b1 b2 i : bead false (vscal (1 / 2) (vadd b1 b2), vsub b2 b1) i = b1 i /\ bead true (vscal (1 / 2) (vadd b1 b2), vsub b2 b1) i = b2 i.
Proof. unfold bead, vscal, vadd, vsub. cbn [fst snd]. split; field. Qed.
Lemma dist_ext p q p' q' : (forall i, p i = p' i) -> (forall i, q i = q' i) -> dist3 p q = dist3 p' q'.
Proof. intros H1 H2. unfold dist3. rewrite !H1, !H2. reflexivity. Qed.

Lemma place_dumbbells_good fuel sizes : forall k cur beads ds k', place_dumbbells rand lo hi dx theta phi fuel k sizes cur beads = Some (ds, k') ->
  length ds = length sizes /\
  (forall i, (i < length ds)%nat -> good (nth i sizes 0) (bead false (nth i ds (v3 0 0 0, v3 0 0 0))) (bead true (nth i ds (v3 0 0 0, v3 0 0 0))) (cur ++ beads)) /\
  (forall i j, (i < j)%nat -> (j < length ds)%nat -> forall bi bj,
     apart (nth j sizes 0) (bead bj (nth j ds (v3 0 0 0, v3 0 0 0))) (nth i sizes 0) (bead bi (nth i ds (v3 0 0 0, v3 0 0 0)))).
Proof.
  induction sizes as [|r sizes IH]; intros k cur beads ds k' H; cbn [place_dumbbells] in H.
  { injection H as <- <-. split; [reflexivity|split; [intros i Hi|intros i j Hi Hj]; simpl in *; lia]. }
  destruct (place_dumbbell rand lo hi dx theta phi fuel k r cur beads) as [[[b1 b2] k1]|] eqn:E; [|discriminate].
  destruct (place_dumbbells rand lo hi dx theta phi fuel k1 sizes cur (beads ++ [(r, b1); (r, b2)])) as [[qs k2]|] eqn:E2; [|discriminate].
  injection H as <- <-. apply place_dumbbell_good in E. destruct E as [G1 [G2 [G3 [G4 [t [f [G5 [G6 G7]]]]]]]].
  apply IH in E2. destruct E2 as [L [A B]]. split; [simpl; lia|]. split.
  - intros [|i] Hi; cbn [nth length] in *.
    + unfold good, in_box, free, apart.
      assert (B1 := fun i => proj1 (bead_back b1 b2 i)). assert (B2 := fun i => proj2 (bead_back b1 b2 i)).
      split; [intros i Hi'; rewrite B1; exact (G1 i Hi')|]. split; [intros i Hi'; rewrite B2; exact (G2 i Hi')|].
      split; [intros r' p' I; rewrite (dist_ext _ p' b1 p' B1 (fun _ => eq_refl)); exact (G3 _ _ I)|].
      split; [intros r' p' I; rewrite (dist_ext _ p' b2 p' B2 (fun _ => eq_refl)); exact (G4 _ _ I)|].
      exists t, f. split; [exact G5|]. split; [exact G6|]. intros i. rewrite B1, B2. apply G7.
    + destruct (A i ltac:(lia)) as [A1 [A2 [A3 [A4 A5]]]]. split; [exact A1|]. split; [exact A2|].
      split; [|split; [|exact A5]]; intros r' p' I; [apply A3|apply A4]; rewrite app_assoc; apply in_or_app; left; exact I.
  - intros [|i] [|j] Hij Hj bi bj; cbn [nth length] in *; try lia.
    + destruct (A j ltac:(lia)) as [_ [_ [A3 [A4 _]]]].
      assert (A34 : forall p', In (r, p') ((cur ++ beads ++ [(r, b1); (r, b2)])) -> apart (nth j sizes 0) (bead bj (nth j qs (v3 0 0 0, v3 0 0 0))) r p')
        by (intros p' I; destruct bj; [exact (A4 _ _ I)|exact (A3 _ _ I)]).
      unfold apart in *. destruct bi.
      * rewrite (dist_ext _ _ _ b2 (fun _ => eq_refl) (fun i => proj2 (bead_back b1 b2 i))). apply A34. do 2 (apply in_or_app; right). right. left. reflexivity.
      * rewrite (dist_ext _ _ _ b1 (fun _ => eq_refl) (fun i => proj1 (bead_back b1 b2 i))). apply A34. do 2 (apply in_or_app; right). left. reflexivity.
    + apply B; lia.
Qed.
Lemma good_length r x d l : good r (bead false (x, d)) (bead true (x, d)) l ->
  exists t f, angle_ok theta t /\ angle_ok phi f /\ forall i, d i = dx * direction t f i.
Proof.
  intros [_ [_ [_ [_ [t [f [H1 [H2 H3]]]]]]]]. exists t, f. split; [exact H1|]. split; [exact H2|].
  intros i. specialize (H3 i). unfold bead in H3. cbn [fst snd] in H3. lra.
Qed.
End R.
