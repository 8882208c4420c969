(** C58: proofs about the crossing test for convex polygons. *)
From Coq Require Import Reals List Arith Bool Lia Lra Psatz.
From Verif Require Import Base Py Model_Mob Model_Close Model_Place Model_Polygon Spec_Polygon.
Import ListNotations.
Local Open Scope R_scope.

Lemma Rltb_t x y : Rltb x y = true <-> x < y.
Proof. unfold Rltb. destruct (Rlt_dec x y); split; intros; try discriminate; auto; contradiction. Qed.
Lemma Rleb_t x y : Rleb x y = true <-> x <= y.
Proof. unfold Rleb. destruct (Rle_dec x y); split; intros; try discriminate; auto; contradiction. Qed.
Lemma Rleb_f x y : Rleb x y = false <-> y < x.
Proof. unfold Rleb. destruct (Rle_dec x y); split; intros; try discriminate; auto; lra. Qed.

(** The edge from a to b goes up (down) through the height of p. *)
Definition up (p a b : point) : Prop := snd a < snd p <= snd b.
Definition down (p a b : point) : Prop := snd b < snd p <= snd a.
Definition crossing (p a b : point) : Prop := (up p a b /\ 0 <= side a b p) \/ (down p a b /\ side a b p <= 0).

Definition crossb (p a b : point) : bool :=
  (Rltb (snd a) (snd p) && Rleb (snd p) (snd b) && Rleb 0 (side a b p))
  || (Rltb (snd b) (snd p) && Rleb (snd p) (snd a) && Rleb (side a b p) 0).
Lemma crossb_t p a b : crossb p a b = true <-> crossing p a b.
Proof.
  unfold crossb, crossing, up, down. rewrite orb_true_iff, !andb_true_iff, !Rltb_t, !Rleb_t. tauto.
Qed.

(** Where a crossing edge meets the height of p. *)
Lemma xint_up x y a b : up (x, y) a b ->
  (x <= (y - snd a) * (fst b - fst a) / (snd b - snd a) + fst a <-> 0 <= side a b (x, y)).
Proof.
  destruct a as [ax ay], b as [bx bay]; unfold up, side; simpl; intros H.
  set (q := (y - ay) * (bx - ax) / (bay - ay)).
  assert (Q : q * (bay - ay) = (y - ay) * (bx - ax)) by (unfold q; field; lra).
  split; intros; nra.
Qed.
Lemma xint_down x y a b : down (x, y) a b ->
  (x <= (y - snd a) * (fst b - fst a) / (snd b - snd a) + fst a <-> side a b (x, y) <= 0).
Proof.
  destruct a as [ax ay], b as [bx bay]; unfold down, side; simpl; intros H.
  set (q := (y - ay) * (bx - ax) / (bay - ay)).
  assert (Q : q * (bay - ay) = (y - ay) * (bx - ax)) by (unfold q; field; lra).
  split; intros; nra.
Qed.
(** A meeting point is not to the right of both ends. *)
Lemma crossing_left x y a b : crossing (x, y) a b -> x <= Rmax (fst a) (fst b).
Proof.
  destruct a as [ax ay], b as [bx bay]; unfold crossing, up, down, side; simpl; intros H.
  destruct (Rle_dec x (Rmax ax bx)) as [L|L]; [exact L|exfalso].
  pose proof (Rmax_l ax bx); pose proof (Rmax_r ax bx).
  destruct H as [[K1 K2]|[K1 K2]]; nra.
Qed.

Lemma polygon_edge_xor x y b s :
  exists s', polygon_edge x y b s = Ok s' /\ p1 s' = b /\ inside s' = xorb (inside s) (crossb (x, y) (p1 s) b).
Proof.
  unfold polygon_edge. destruct s as [[ax ay] ins xi]. destruct b as [bx bay]. cbn [p1 inside xinters].
  destruct (Rltb (Rmin ay bay) y && Rleb y (Rmax ay bay)) eqn:E.
  2: { simpl. eexists; split; [reflexivity|]. split; [reflexivity|]. cbn [inside].
       destruct (crossb (x, y) (ax, ay) (bx, bay)) eqn:C; [exfalso|symmetry; apply xorb_false_r].
       apply crossb_t in C. unfold crossing, up, down in C; simpl in C.
       rewrite (proj2 (Rltb_t _ _)), (proj2 (Rleb_t _ _)) in E; [discriminate| |].
       - destruct C as [[C _]|[C _]]; [apply Rle_trans with bay; [lra|apply Rmax_r]|apply Rle_trans with ay; [lra|apply Rmax_l]].
       - destruct C as [[C _]|[C _]]; [apply Rle_lt_trans with ay; [apply Rmin_l|lra]|apply Rle_lt_trans with bay; [apply Rmin_r|lra]]. }
  apply andb_true_iff in E. destruct E as [E1 E2]. apply Rltb_t in E1. apply Rleb_t in E2.
  assert (UD : up (x, y) (ax, ay) (bx, bay) \/ down (x, y) (ax, ay) (bx, bay)).
  { unfold up, down; simpl. revert E1 E2. unfold Rmin, Rmax. destruct (Rle_dec ay bay); intros; lra. }
  assert (NE : ay <> bay) by (unfold up, down in UD; simpl in UD; lra).
  assert (X : x <= (y - ay) * (bx - ax) / (bay - ay) + ax <-> crossb (x, y) (ax, ay) (bx, bay) = true).
  { rewrite crossb_t. unfold crossing. destruct UD as [U|U].
    - rewrite (xint_up x y (ax, ay) (bx, bay) U). unfold up, down in *; simpl in *. lra.
    - rewrite (xint_down x y (ax, ay) (bx, bay) U). unfold up, down in *; simpl in *. lra. }
  rewrite andb_true_l. destruct (Rleb x (Rmax ax bx)) eqn:E3.
  - apply Rleb_t in E3. destruct (Req_EM_T ay bay) as [Y|_]; [contradiction|].
    destruct (Req_EM_T ax bx) as [EX|NX].
    + eexists; split; [reflexivity|]. split; [reflexivity|]. cbn [inside].
      rewrite (proj1 X); [rewrite xorb_true_r; reflexivity|].
      rewrite <- EX in *. rewrite Rmax_left in E3 by lra.
      replace ((y - ay) * (ax - ax) / (bay - ay) + ax) with ax by (field; lra). exact E3.
    + eexists; split; [reflexivity|]. split; [reflexivity|]. cbn [inside].
      destruct (Rleb x _) eqn:L.
      * apply Rleb_t in L. rewrite (proj1 X L). rewrite xorb_true_r. reflexivity.
      * destruct (crossb (x, y) (ax, ay) (bx, bay)) eqn:C; [|rewrite xorb_false_r; reflexivity].
        apply Rleb_f in L. pose proof (proj2 X eq_refl). lra.
  - eexists; split; [reflexivity|]. split; [reflexivity|]. cbn [inside].
    destruct (crossb (x, y) (ax, ay) (bx, bay)) eqn:C; [exfalso|rewrite xorb_false_r; reflexivity].
    apply crossb_t, crossing_left in C. apply Rleb_f in E3. simpl in C. lra.
Qed.

Fixpoint xsum (k : nat) (c : nat -> bool) : bool :=
  match k with O => false | S k' => xorb (c 0%nat) (xsum k' (fun m => c (S m))) end.

Lemma xsum_ext k : forall c d, (forall m, (m < k)%nat -> c m = d m) -> xsum k c = xsum k d.
Proof.
  induction k as [|k IH]; intros c d H; simpl; [reflexivity|].
  rewrite (H 0%nat) by lia. f_equal. apply IH. intros m Hm. apply H. lia.
Qed.

Section Poly.
Variable poly : list point.
Let n := length poly.
Hypothesis n_pos : (0 < n)%nat.

Lemma nth_vertex i : nth_error poly (i mod length poly) = Some (vertex poly i).
Proof.
  unfold vertex. apply nth_error_nth'. apply Nat.mod_upper_bound. fold n. lia.
Qed.

Lemma polygon_loop_xor x y k : forall i s, p1 s = vertex poly i ->
  exists s', polygon_loop x y poly k (S i) s = Ok s' /\
    inside s' = xorb (inside s) (xsum k (fun m => crossb (x, y) (vertex poly (i + m)) (vertex poly (S (i + m))))).
Proof.
  induction k as [|k IH]; intros i s H.
  - exists s. split; [reflexivity|]. simpl. symmetry; apply xorb_false_r.
  - cbn [polygon_loop]. rewrite nth_vertex. unfold bind at 1.
    destruct (polygon_edge_xor x y (vertex poly (S i)) s) as [s1 [E1 [P1 I1]]].
    rewrite E1. unfold bind.
    destruct (IH (S i) s1 P1) as [s2 [E2 I2]]. exists s2. split; [exact E2|].
    rewrite I2, I1, H. cbn [xsum]. rewrite xorb_assoc. f_equal. rewrite Nat.add_0_r. f_equal.
    apply xsum_ext. intros m _. rewrite Nat.add_succ_r. reflexivity.
Qed.

Lemma crossb_self p a : crossb p a a = false.
Proof.
  destruct (crossb p a a) eqn:C; [|reflexivity]. apply crossb_t in C. unfold crossing, up, down in C. lra.
Qed.

Lemma polygon_xor x y :
  point_inside_polygon x y poly = Ok (xsum n (fun m => crossb (x, y) (vertex poly m) (vertex poly (S m)))).
Proof.
  unfold point_inside_polygon. 
  assert (EP : exists p0 rest, poly = p0 :: rest).
  { unfold n in n_pos. destruct poly as [|p0 rest]; [simpl in n_pos; lia|exists p0, rest; reflexivity]. }
  destruct EP as [p0 [rest EP]].
  transitivity (do s <- polygon_loop x y poly (length poly + 1) 0 (mkPip p0 false None) ;; Ok (inside s)).
  { rewrite EP. reflexivity. }
  replace (length poly + 1)%nat with (S n) by (unfold n; lia).
  assert (V0 : vertex poly 0 = p0).
  { unfold vertex. rewrite Nat.mod_0_l by (fold n; lia). rewrite EP. reflexivity. }
  cbn [polygon_loop]. rewrite nth_vertex. unfold bind at 2. rewrite V0.
  destruct (polygon_edge_xor x y p0 (mkPip p0 false None)) as [s1 [E1 [P1 I1]]].
  rewrite E1. unfold bind at 2. rewrite <- V0 in P1.
  destruct (polygon_loop_xor x y n 0 s1 P1) as [s2 [E2 I2]]. rewrite E2. unfold bind. f_equal.
  rewrite I2, I1. cbn [p1 inside]. rewrite crossb_self. simpl xorb at 2. rewrite xorb_false_l. reflexivity.
Qed.

(** ** At most one edge up, at most one down *)
Lemma vertex_mod i : vertex poly (i mod n) = vertex poly i.
Proof. unfold vertex. fold n. rewrite Nat.mod_mod by lia. reflexivity. Qed.
Lemma vertex_S_mod i : vertex poly (S (i mod n)) = vertex poly (S i).
Proof.
  unfold vertex. fold n. f_equal.
  replace (S (i mod n)) with (i mod n + 1)%nat by lia. rewrite Nat.add_mod_idemp_l by lia. f_equal. lia.
Qed.
End Poly.

Lemma xsum_none k : forall c, (forall m, (m < k)%nat -> c m = false) -> xsum k c = false.
Proof.
  induction k as [|k IH]; intros c H; simpl; [reflexivity|].
  rewrite (H 0%nat) by lia. rewrite (IH _ (fun m Hm => H (S m) ltac:(lia))). reflexivity.
Qed.
Lemma xsum_one k : forall c a, (a < k)%nat -> (forall m, (m < k)%nat -> m <> a -> c m = false) -> xsum k c = c a.
Proof.
  induction k as [|k IH]; intros c a Ha H; [lia|]. simpl. destruct a as [|a].
  - rewrite xsum_none; [apply xorb_false_r|]. intros m Hm. apply H; lia.
  - rewrite (H 0%nat) by lia. rewrite (IH _ a); [apply xorb_false_l|lia|]. intros m Hm N. apply H; lia.
Qed.
Lemma xsum_two k : forall c a b, (a < k)%nat -> (b < k)%nat -> a <> b ->
  (forall m, (m < k)%nat -> m <> a -> m <> b -> c m = false) -> xsum k c = xorb (c a) (c b).
Proof.
  induction k as [|k IH]; intros c a b Ha Hb N H; [lia|]. simpl. destruct a as [|a].
  - destruct b as [|b]; [lia|]. f_equal. apply (xsum_one k (fun m => c (S m)) b); [lia|]. intros m Hm M. apply H; lia.
  - destruct b as [|b].
    + rewrite xorb_comm. f_equal. apply (xsum_one k (fun m => c (S m)) a); [lia|]. intros m Hm M. apply H; lia.
    + rewrite (H 0%nat) by lia. rewrite xorb_false_l. apply (IH (fun m => c (S m))); try lia. intros m Hm M1 M2. apply H; lia.
Qed.

(** The point of the segment ab at the height of p, as a convex combination. *)
Lemma between y a b : a < y <= b -> exists s, 0 <= s < 1 /\ y = s * a + (1 - s) * b.
Proof.
  intros H. exists ((b - y) / (b - a)). split.
  - split; [apply Rmult_le_pos; [lra|left; apply Rinv_0_lt_compat; lra]|].
    apply (Rmult_lt_reg_r (b - a)); [lra|]. unfold Rdiv. rewrite Rmult_assoc, Rinv_l by lra. lra.
  - field. lra.
Qed.

Lemma comb_nonneg' t p q : 0 <= t <= 1 -> 0 <= p -> 0 <= q -> 0 <= t * p + (1 - t) * q.
Proof. intros H P Q. apply Rplus_le_le_0_compat; apply Rmult_le_pos; lra. Qed.
Lemma comb_nonneg s t p q : 0 <= t <= 1 -> 0 <= s * p -> 0 <= s * q -> 0 <= s * (t * p + (1 - t) * q).
Proof.
  intros H P Q. replace (s * (t * p + (1 - t) * q)) with (t * (s * p) + (1 - t) * (s * q)) by ring.
  apply comb_nonneg'; assumption.
Qed.

Lemma mod_shift m d k : (0 < d < k)%nat -> ((m + d) mod k)%nat <> (m mod k)%nat.
Proof.
  intros H E. rewrite <- Nat.add_mod_idemp_l in E by lia. pose proof (Nat.mod_upper_bound m k ltac:(lia)) as L.
  set (r := (m mod k)%nat) in *. destruct (Nat.lt_ge_cases (r + d) k) as [G|G].
  - rewrite Nat.mod_small in E by exact G. lia.
  - replace (r + d)%nat with ((r + d - k) + 1 * k)%nat in E by lia. rewrite Nat.mod_add, Nat.mod_small in E by lia. lia.
Qed.

Section Convex.
Variable s : R.
Hypothesis s1 : s = 1 \/ s = -1.
Variable poly : list point.
Let n := length poly.
Hypothesis C : strictly_convex s poly.
Notation v := (vertex poly).

Lemma n3 : (3 <= n)%nat.
Proof. apply C. Qed.
Lemma n0 : (0 < n)%nat.
Proof. pose proof n3. lia. Qed.

(** No vertex is strictly outside an edge. *)
Lemma weak i j : (i < n)%nat -> 0 <= s * side (v i) (v (S i)) (v j).
Proof.
  intros Hi. rewrite <- (vertex_mod poly n0 j). set (j' := (j mod length poly)%nat).
  assert (Hj : (j' < n)%nat) by (apply Nat.mod_upper_bound; pose proof n0; unfold n in *; lia).
  destruct (Nat.eq_dec j' i) as [->|N1]; [unfold side; right; ring|].
  destruct (Nat.eq_dec j' (S i mod length poly)) as [->|N2].
  - rewrite (vertex_mod poly n0 (S i)). unfold side. right; ring.
  - left. apply (proj2 C); assumption.
Qed.

Lemma strict_next i j : (i < n)%nat -> (j < n)%nat -> i <> j -> (S j mod n)%nat <> i ->
  0 < s * side (v i) (v (S i)) (v (S j)).
Proof.
  intros Hi Hj N N2. rewrite <- (vertex_mod poly n0 (S j)). apply (proj2 C); [exact Hi| |exact N2|].
  - apply Nat.mod_upper_bound. pose proof n0. lia.
  - fold n. intro E. apply N.
    destruct (Nat.eq_dec (S i) n) as [E1|E1]; destruct (Nat.eq_dec (S j) n) as [E2|E2]; [lia| | |].
    + rewrite E1, Nat.mod_same, (Nat.mod_small (S j)) in E by lia. lia.
    + rewrite E2, Nat.mod_same, (Nat.mod_small (S i)) in E by lia. lia.
    + rewrite !Nat.mod_small in E by lia. lia.
Qed.

Lemma side_comb a b p q t : side a b (t * fst p + (1 - t) * fst q, t * snd p + (1 - t) * snd q)
  = t * side a b p + (1 - t) * side a b q.
Proof. unfold side; simpl. ring. Qed.
Lemma side_shift a b x x' y : side a b (x, y) - side a b (x', y) = (snd b - snd a) * (x' - x).
Proof. unfold side; simpl; ring. Qed.
Lemma side_on a b t : side a b (t * fst a + (1 - t) * fst b, t * snd a + (1 - t) * snd b) = 0.
Proof. unfold side; simpl; ring. Qed.

Lemma one_up p i j : (i < n)%nat -> (j < n)%nat -> up p (v i) (v (S i)) -> up p (v j) (v (S j)) -> i = j.
Proof.
  intros Hi Hj Ui Uj. destruct (Nat.eq_dec i j) as [E|N]; [exact E|exfalso].
  unfold up in *.
  destruct (between _ _ _ Ui) as [t [Ht Et]]. destruct (between _ _ _ Uj) as [r [Hr Er]].
  set (qi := t * fst (v i) + (1 - t) * fst (v (S i))). set (qj := r * fst (v j) + (1 - r) * fst (v (S j))).
  assert (Si : side (v i) (v (S i)) (qi, snd p) = 0) by (rewrite Et; apply side_on).
  assert (Sj : side (v j) (v (S j)) (qj, snd p) = 0) by (rewrite Er; apply side_on).
  assert (Nj : (S j mod n)%nat <> i).
  { intro E. rewrite <- (vertex_mod poly n0 (S j)) in Uj. fold n in Uj. rewrite E in Uj. lra. }
  assert (Ni : (S i mod n)%nat <> j).
  { intro E. rewrite <- (vertex_mod poly n0 (S i)) in Ui. fold n in Ui. rewrite E in Ui. lra. }
  assert (A : 0 < s * side (v i) (v (S i)) (qj, snd p)).
  { rewrite Er. unfold qj. rewrite side_comb. pose proof (weak i j Hi).
    pose proof (strict_next i j Hi Hj N Nj). nra. }
  assert (B : 0 < s * side (v j) (v (S j)) (qi, snd p)).
  { rewrite Et. unfold qi. rewrite side_comb. pose proof (weak j i Hj).
    pose proof (strict_next j i Hj Hi (not_eq_sym N) Ni). nra. }
  pose proof (side_shift (v i) (v (S i)) qj qi (snd p)) as D1.
  pose proof (side_shift (v j) (v (S j)) qi qj (snd p)) as D2.
  rewrite Si in D1. rewrite Sj in D2.
  destruct s1 as [-> | ->]; nra.
Qed.

Lemma strict_first i j : (i < n)%nat -> (j < n)%nat -> i <> j -> j <> (S i mod n)%nat ->
  0 < s * side (v i) (v (S i)) (v j).
Proof. intros. apply (proj2 C); auto. Qed.

Lemma one_down p i j : (i < n)%nat -> (j < n)%nat -> down p (v i) (v (S i)) -> down p (v j) (v (S j)) -> i = j.
Proof.
  intros Hi Hj Ui Uj. destruct (Nat.eq_dec i j) as [E|N]; [exact E|exfalso].
  unfold down in *.
  destruct (between _ _ _ Ui) as [t [Ht Et]]. destruct (between _ _ _ Uj) as [r [Hr Er]].
  set (qi := t * fst (v (S i)) + (1 - t) * fst (v i)). set (qj := r * fst (v (S j)) + (1 - r) * fst (v j)).
  assert (Si : side (v i) (v (S i)) (qi, snd p) = 0) by (rewrite Et; unfold qi; rewrite side_comb; unfold side; ring).
  assert (Sj : side (v j) (v (S j)) (qj, snd p) = 0) by (rewrite Er; unfold qj; rewrite side_comb; unfold side; ring).
  assert (Nj : (S j mod n)%nat <> i).
  { intro E. rewrite <- (vertex_mod poly n0 (S j)) in Uj. fold n in Uj. rewrite E in Uj. lra. }
  assert (Ni : (S i mod n)%nat <> j).
  { intro E. rewrite <- (vertex_mod poly n0 (S i)) in Ui. fold n in Ui. rewrite E in Ui. lra. }
  assert (A : 0 < s * side (v i) (v (S i)) (qj, snd p)).
  { rewrite Er. unfold qj. rewrite side_comb. pose proof (weak i (S j) Hi).
    pose proof (strict_first i j Hi Hj N (not_eq_sym Ni)). nra. }
  assert (B : 0 < s * side (v j) (v (S j)) (qi, snd p)).
  { rewrite Et. unfold qi. rewrite side_comb. pose proof (weak j (S i) Hj).
    pose proof (strict_first j i Hj Hi (not_eq_sym N) (not_eq_sym Nj)). nra. }
  pose proof (side_shift (v i) (v (S i)) qj qi (snd p)) as D1.
  pose proof (side_shift (v j) (v (S j)) qi qj (snd p)) as D2.
  rewrite Si in D1. rewrite Sj in D2.
  destruct s1 as [-> | ->]; nra.
Qed.

(** ** As many up as down *)
Lemma walk (f : nat -> bool) : forall k i, f i = true -> f (i + k)%nat = false ->
  exists m, (i <= m < i + k)%nat /\ f m = true /\ f (S m) = false.
Proof.
  induction k as [|k IH]; intros i H1 H2.
  - rewrite Nat.add_0_r in H2. congruence.
  - destruct (f (S i)) eqn:E.
    + destruct (IH (S i) E) as [m [Hm H]]; [rewrite <- H2; f_equal; lia|]. exists m. split; [lia|exact H].
    + exists i. split; [lia|auto].
Qed.
Lemma vertex_period i : v (i + n) = v i.
Proof.
  unfold vertex. fold n. f_equal. replace (i + n)%nat with (i + 1 * n)%nat by lia. apply Nat.mod_add. pose proof n0. lia.
Qed.
Lemma up_down p : (exists i, (i < n)%nat /\ up p (v i) (v (S i))) <-> (exists j, (j < n)%nat /\ down p (v j) (v (S j))).
Proof.
  split; intros [i [Hi U]].
  - destruct (walk (fun m => Rleb (snd p) (snd (v m))) (n - 1) (S i)) as [m [_ [M1 M2]]].
    + apply Rleb_t, U.
    + replace (S i + (n - 1))%nat with (i + n)%nat by (pose proof n0; lia). rewrite vertex_period. apply Rleb_f, U.
    + exists (m mod n)%nat. split; [apply Nat.mod_upper_bound; pose proof n0; lia|].
      unfold n at 1 2. rewrite (vertex_mod poly n0), (vertex_S_mod poly n0). split; [apply Rleb_f, M2|apply Rleb_t, M1].
  - destruct (walk (fun m => negb (Rleb (snd p) (snd (v m)))) (n - 1) (S i)) as [m [_ [M1 M2]]].
    + apply negb_true_iff, Rleb_f, U.
    + replace (S i + (n - 1))%nat with (i + n)%nat by (pose proof n0; lia). rewrite vertex_period. apply negb_false_iff, Rleb_t, U.
    + exists (m mod n)%nat. split; [apply Nat.mod_upper_bound; pose proof n0; lia|].
      unfold n at 1 2. rewrite (vertex_mod poly n0), (vertex_S_mod poly n0).
      split; [apply Rleb_f, negb_true_iff, M1|apply Rleb_t, negb_false_iff, M2].
Qed.

(** ** Interior points have an edge up *)
Lemma no_up p : (forall i, (i < n)%nat -> ~ up p (v i) (v (S i))) ->
  (forall i, snd p <= snd (v i)) \/ (forall i, snd (v i) < snd p).
Proof.
  intros N. pose proof n0 as P.
  assert (ND : forall i, ~ down p (v i) (v (S i))).
  { intros i D. destruct (proj2 (up_down p)) as [j [Hj U]]; [|exact (N j Hj U)].
    exists (i mod n)%nat. split; [apply Nat.mod_upper_bound; lia|].
    unfold n. rewrite (vertex_mod poly n0), (vertex_S_mod poly n0). exact D. }
  assert (NU : forall i, ~ up p (v i) (v (S i))).
  { intros i D. apply (N (i mod n)%nat); [apply Nat.mod_upper_bound; lia|].
    unfold n. rewrite (vertex_mod poly n0), (vertex_S_mod poly n0). exact D. }
  destruct (Rle_dec (snd p) (snd (v 0%nat))) as [L|L].
  - left. induction i as [|i IH]; [exact L|].
    destruct (Rle_dec (snd p) (snd (v (S i)))) as [K|K]; [exact K|exfalso]. apply (ND i). split; lra.
  - right. induction i as [|i IH]; [lra|].
    destruct (Rlt_dec (snd (v (S i))) (snd p)) as [K|K]; [exact K|exfalso]. apply (NU i). split; lra.
Qed.

Lemma argmax (f : nat -> R) : forall k, exists m, (m <= k)%nat /\ forall i, (i <= k)%nat -> f i <= f m.
Proof.
  induction k as [|k [m [Hm H]]].
  - exists 0%nat. split; [lia|]. intros i Hi. replace i with 0%nat by lia. lra.
  - destruct (Rle_dec (f (S k)) (f m)) as [L|L].
    + exists m. split; [lia|]. intros i Hi. destruct (Nat.eq_dec i (S k)) as [->|]; [exact L|apply H; lia].
    + exists (S k). split; [lia|]. intros i Hi. destruct (Nat.eq_dec i (S k)) as [->|]; [lra|]. specialize (H i ltac:(lia)). lra.
Qed.
Lemma extreme (f : point -> R) : exists m, forall i, f (v i) <= f (v (S m)).
Proof.
  destruct (argmax (fun i => f (v i)) (n - 1)) as [m [Hm H]]. pose proof n0 as P.
  exists (m + n - 1)%nat. intros i. replace (S (m + n - 1)) with (m + n)%nat by lia. rewrite vertex_period.
  rewrite <- (vertex_mod poly n0 i). apply H. pose proof (Nat.mod_upper_bound i n). unfold n in *. lia.
Qed.

Lemma interior_any p i : interior s poly p -> 0 < s * side (v i) (v (S i)) p.
Proof.
  intros I. rewrite <- (vertex_mod poly n0 i), <- (vertex_S_mod poly n0 i). apply I.
  apply Nat.mod_upper_bound. pose proof n0. unfold n in *. lia.
Qed.
Lemma convex_corner m : 0 < s * side (v m) (v (S m)) (v (S (S m))).
Proof.
  rewrite <- (vertex_mod poly n0 m), <- (vertex_S_mod poly n0 m), <- (vertex_mod poly n0 (S (S m))).
  pose proof n3 as P3. fold n. apply (proj2 C).
  - apply Nat.mod_upper_bound. lia.
  - apply Nat.mod_upper_bound. lia.
  - fold n. replace (S (S m)) with (m + 2)%nat by lia. apply mod_shift. lia.
  - fold n. replace (S (m mod n)) with (m mod n + 1)%nat by lia. rewrite Nat.add_mod_idemp_l by lia.
    replace (S (S m)) with (m + 1 + 1)%nat by lia. apply mod_shift. lia.
Qed.

Lemma corner_contra (a b c p : point) (h : R) :
  h * snd a <= h * snd b -> h * snd c <= h * snd b -> h * snd b <= h * snd p -> h <> 0 ->
  0 < s * side a b c -> 0 < s * side a b p -> 0 < s * side b c p -> False.
Proof.
  destruct a as [ax ay], b as [bx bay], c as [cx cy], p as [px py]. unfold side; simpl. intros A B D H0 X Y Z.
  assert (I : (h * (bay - cy)) * (s * ((bx - ax) * (py - ay) - (bay - ay) * (px - ax)))
            + (h * (bay - ay)) * (s * ((cx - bx) * (py - bay) - (cy - bay) * (px - bx)))
            = - (h * (py - bay)) * (s * ((bx - ax) * (cy - ay) - (bay - ay) * (cx - ax)))) by ring.
  assert (P1 : 0 <= h * (bay - cy)) by lra. assert (P2 : 0 <= h * (bay - ay)) by lra. assert (P3 : 0 <= h * (py - bay)) by lra.
  assert (M1 := Rmult_le_pos _ _ P1 (Rlt_le _ _ Y)). assert (M2 := Rmult_le_pos _ _ P2 (Rlt_le _ _ Z)).
  assert (M3 := Rmult_le_pos _ _ P3 (Rlt_le _ _ X)).
  assert (E1 : h * (bay - cy) * (s * ((bx - ax) * (py - ay) - (bay - ay) * (px - ax))) = 0) by lra.
  assert (E2 : h * (bay - ay) * (s * ((cx - bx) * (py - bay) - (cy - bay) * (px - bx))) = 0) by lra.
  apply Rmult_integral in E1. destruct E1 as [E1|E1]; [|lra].
  apply Rmult_integral in E2. destruct E2 as [E2|E2]; [|lra].
  apply Rmult_integral in E1. destruct E1 as [E1|E1]; [contradiction|].
  apply Rmult_integral in E2. destruct E2 as [E2|E2]; [contradiction|].
  replace cy with bay in X by lra. replace ay with bay in X by lra. nra.
Qed.

Lemma interior_up p : interior s poly p -> exists i, (i < n)%nat /\ up p (v i) (v (S i)).
Proof.
  intros I.
  assert (D : (exists i, (i < n)%nat /\ up p (v i) (v (S i))) \/ forall i, (i < n)%nat -> ~ up p (v i) (v (S i))).
  { assert (G : forall k, (exists i, (i < k)%nat /\ up p (v i) (v (S i))) \/ forall i, (i < k)%nat -> ~ up p (v i) (v (S i))).
    { induction k as [|k IH]; [right; intros; lia|]. destruct IH as [[i [Hi U]]|N]; [left; exists i; split; [lia|exact U]|].
      unfold up in *. destruct (Rlt_dec (snd (v k)) (snd p)); [destruct (Rle_dec (snd p) (snd (v (S k))))|].
      - left. exists k. split; [lia|]. split; assumption.
      - right. intros i Hi U. destruct (Nat.eq_dec i k) as [->|]; [lra|apply (N i); [lia|exact U]].
      - right. intros i Hi U. destruct (Nat.eq_dec i k) as [->|]; [lra|apply (N i); [lia|exact U]]. }
    apply G. }
  destruct D as [D|N]; [exact D|exfalso]. destruct (no_up p N) as [L|L].
  - destruct (extreme (fun q => - snd q)) as [m Hm].
    apply (corner_contra (v m) (v (S m)) (v (S (S m))) p (-1)).
    + specialize (Hm m). lra.
    + specialize (Hm (S (S m))). lra.
    + specialize (L (S m)). lra.
    + lra.
    + apply convex_corner.
    + apply interior_any, I.
    + apply interior_any, I.
  - destruct (extreme (fun q => snd q)) as [m Hm].
    apply (corner_contra (v m) (v (S m)) (v (S (S m))) p 1).
    + specialize (Hm m). lra.
    + specialize (Hm (S (S m))). lra.
    + specialize (L (S m)). lra.
    + lra.
    + apply convex_corner.
    + apply interior_any, I.
    + apply interior_any, I.
Qed.

(** ** The result *)
Definition c p m := crossb p (v m) (v (S m)).
Lemma inside_two p U D : (U < n)%nat -> (D < n)%nat -> up p (v U) (v (S U)) -> down p (v D) (v (S D)) ->
  xsum n (c p) = xorb (Rleb 0 (side (v U) (v (S U)) p)) (Rleb (side (v D) (v (S D)) p) 0).
Proof.
  intros HU HD u d.
  assert (N : U <> D) by (intro E; subst D; unfold up, down in *; lra).
  rewrite (xsum_two n _ U D HU HD N).
  - f_equal; unfold c; apply eq_true_iff_eq; rewrite crossb_t, Rleb_t; unfold crossing, up, down in *; lra.
  - intros m Hm N1 N2. unfold c. destruct (crossb p (v m) (v (S m))) eqn:E; [exfalso|reflexivity].
    apply crossb_t in E. destruct E as [[E _]|[E _]].
    + apply N1, (one_up p m U); assumption.
    + apply N2, (one_down p m D); assumption.
Qed.

Lemma inside_interior x y : interior s poly (x, y) -> point_inside_polygon x y poly = Ok true.
Proof.
  intros I. rewrite (polygon_xor poly n0). f_equal. fold n.
  destruct (interior_up (x, y) I) as [U [HU u]]. destruct (proj1 (up_down (x, y))) as [D [HD d]]; [exists U; auto|].
  change (xsum n (c (x, y)) = true). rewrite (inside_two (x, y) U D HU HD u d).
  pose proof (I U HU) as IU. pose proof (I D HD) as ID.
  destruct s1 as [E | E]; rewrite E in IU, ID.
  - rewrite (proj2 (Rleb_t _ _)) by lra. rewrite (proj2 (Rleb_f _ _)) by lra. reflexivity.
  - rewrite (proj2 (Rleb_f _ _)) by lra. rewrite (proj2 (Rleb_t _ _)) by lra. reflexivity.
Qed.

Lemma inside_exterior x y : exterior s poly (x, y) -> point_inside_polygon x y poly = Ok false.
Proof.
  intros [i [Hi O]]. rewrite (polygon_xor poly n0). f_equal. fold n. change (xsum n (c (x, y)) = false).
  destruct (xsum n (c (x, y))) eqn:X; [exfalso|reflexivity].
  assert (EU : exists U, (U < n)%nat /\ up (x, y) (v U) (v (S U))).
  { assert (G : forall k (f : nat -> bool), xsum k f = true -> exists m, (m < k)%nat /\ f m = true).
    { induction k as [|k IH]; intros f H; [discriminate|]. simpl in H. destruct (f 0%nat) eqn:F; [exists 0%nat; split; [lia|exact F]|].
      rewrite xorb_false_l in H. destruct (IH _ H) as [m [Hm M]]. exists (S m). split; [lia|exact M]. }
    destruct (G _ _ X) as [m [Hm M]]. unfold c in M. apply crossb_t in M. destruct M as [[M _]|[M _]]; [exists m; auto|].
    apply (proj2 (up_down (x, y))). exists m; auto. }
  destruct EU as [U [HU u]]. destruct (proj1 (up_down (x, y))) as [D [HD d]]; [exists U; auto|].
  rewrite (inside_two (x, y) U D HU HD u d) in X.
  pose proof u as u'. pose proof d as d'. unfold up in u'. unfold down in d'. simpl in u', d'.
  destruct (between _ _ _ u') as [t [Ht Et]]. destruct (between _ _ _ d') as [r [Hr Er]].
  set (xU := t * fst (v U) + (1 - t) * fst (v (S U))) in *. set (xD := r * fst (v (S D)) + (1 - r) * fst (v D)) in *.
  assert (SU : side (v U) (v (S U)) (xU, y) = 0) by (rewrite Et; unfold xU; apply side_on).
  assert (SD : side (v D) (v (S D)) (xD, y) = 0) by (rewrite Er; unfold xD; rewrite side_comb; unfold side; ring).
  assert (QU : forall m, (m < n)%nat -> 0 <= s * side (v m) (v (S m)) (xU, y)).
  { intros m Hm. rewrite Et. unfold xU. rewrite side_comb. apply comb_nonneg; [lra|apply (weak m U Hm)|apply (weak m (S U) Hm)]. }
  assert (QD : forall m, (m < n)%nat -> 0 <= s * side (v m) (v (S m)) (xD, y)).
  { intros m Hm. rewrite Er. unfold xD. rewrite side_comb. apply comb_nonneg; [lra|apply (weak m (S D) Hm)|apply (weak m D Hm)]. }
  pose proof (side_shift (v U) (v (S U)) x xU y) as DU. rewrite SU in DU.
  pose proof (side_shift (v D) (v (S D)) x xD y) as DD. rewrite SD in DD.
  pose proof (side_shift (v U) (v (S U)) xD xU y) as DUD. rewrite SU in DUD.
  pose proof (QD U HU) as QDU. pose proof (QU D HD) as QUD.
  assert (H : (x <= xU /\ xD < x) \/ (xU < x /\ x <= xD)).
  { destruct (Rleb 0 (side (v U) (v (S U)) (x, y))) eqn:A; destruct (Rleb (side (v D) (v (S D)) (x, y)) 0) eqn:B; try discriminate X.
    - left. apply Rleb_t in A. apply Rleb_f in B. split; nra.
    - right. apply Rleb_f in A. apply Rleb_t in B. split; nra. }
  assert (O' : forall l : R, 0 <= l <= 1 -> x = l * xU + (1 - l) * xD -> False).
  { intros l Hl El. assert (Z : s * side (v i) (v (S i)) (x, y)
      = l * (s * side (v i) (v (S i)) (xU, y)) + (1 - l) * (s * side (v i) (v (S i)) (xD, y))).
    { rewrite El. unfold side; simpl. ring. }
    pose proof (comb_nonneg' l _ _ Hl (QU i Hi) (QD i Hi)). lra. }
  destruct H as [[H1 H2]|[H1 H2]].
  - apply (O' ((x - xD) / (xU - xD))).
    + split; [apply Rmult_le_pos; [lra|left; apply Rinv_0_lt_compat; lra]|].
      apply (Rmult_le_reg_r (xU - xD)); [lra|]. unfold Rdiv. rewrite Rmult_assoc, Rinv_l by lra. lra.
    + field. lra.
  - apply (O' ((xD - x) / (xD - xU))).
    + split; [apply Rmult_le_pos; [lra|left; apply Rinv_0_lt_compat; lra]|].
      apply (Rmult_le_reg_r (xD - xU)); [lra|]. unfold Rdiv. rewrite Rmult_assoc, Rinv_l by lra. lra.
    + field. lra.
Qed.
End Convex.
