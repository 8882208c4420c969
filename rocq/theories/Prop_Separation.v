(** C103: the table of separations. *)
From Coq Require Import Reals Arith Bool List Lia Lra.
From Verif Require Import Base Model_Mob Model_Minf Model_Close Model_Separation Spec_Close Proof_R2B4 Proof_Close.
Import ListNotations.
Local Open Scope R_scope.

(** The number of the other bead of the same dumbbell; spheres stay. *)
Definition partner (Ns Nd b : nat) : nat :=
  if Nat.ltb b Ns then b else if Nat.ltb b (Ns + Nd) then (b + Nd)%nat else (b - Nd)%nat.

Lemma partner_place p b : (b < num_spheres p + 2 * num_dumbbells p)%nat ->
  separation_positions p (partner (num_spheres p) (num_dumbbells p) b) = bead_positions p b /\
  separation_sizes p (partner (num_spheres p) (num_dumbbells p) b) = bead_sizes p b.
Proof.
  intros H. unfold partner, separation_positions, separation_sizes, bead_positions, bead_sizes.
  destruct (Nat.ltb_spec b (num_spheres p)) as [L|L].
  - destruct (Nat.ltb_spec b (num_spheres p)); [|lia]. split; reflexivity.
  - destruct (Nat.ltb_spec b (num_spheres p + num_dumbbells p)) as [M|M].
    + destruct (Nat.ltb_spec (b + num_dumbbells p) (num_spheres p)); [lia|].
      destruct (Nat.ltb_spec (b + num_dumbbells p) (num_spheres p + num_dumbbells p)); [lia|].
      replace (b + num_dumbbells p - num_spheres p - num_dumbbells p)%nat with (b - num_spheres p)%nat by lia. split; reflexivity.
    + destruct (Nat.ltb_spec (b - num_dumbbells p) (num_spheres p)); [lia|].
      destruct (Nat.ltb_spec (b - num_dumbbells p) (num_spheres p + num_dumbbells p)); [|lia].
      replace (b - num_dumbbells p - num_spheres p)%nat with (b - num_spheres p - num_dumbbells p)%nat by lia. split; reflexivity.
Qed.

(** The tables are symmetric with zeros on the diagonal, and hold the distances
    of the particles of the matrices, bare and over the mean radius, if the two
    beads of every dumbbell change places. *)
Theorem C103_tables :
  forall error printout p tables error',
    are_some_of_the_particles_too_close error printout p = (Some tables, error') ->
    let n := (num_spheres p + 2 * num_dumbbells p)%nat in
    let other := partner (num_spheres p) (num_dumbbells p) in
    (forall i j, fst tables i j = fst tables j i /\ snd tables i j = snd tables j i) /\
    (forall i, fst tables i i = 0 /\ snd tables i i = 0) /\
    (forall i j, (i < n)%nat -> (j < n)%nat ->
       fst tables (other i) (other j) = norm (vsub (bead_positions p i) (bead_positions p j)) /\
       snd tables (other i) (other j) = scaled_distance (bead_positions p) (bead_sizes p) i j) /\
    (forall i, (i < n)%nat -> (other i < n)%nat /\ other (other i) = i).
Proof.
  intros er pr p T er' E n other. unfold are_some_of_the_particles_too_close in E. destruct (Nat.ltb 0 pr); [|discriminate].
  injection E as E _. subst T. cbn [fst snd].
  assert (S : forall i j, distance_matrix p i j = distance_matrix p j i) by (intros; unfold distance_matrix; apply norm_vsub_sym).
  assert (Z : forall i, distance_matrix p i i = 0).
  { intros i. unfold distance_matrix, norm, vsub. rewrite <- sqrt_0. f_equal. ring. }
  split; [|split; [|split]].
  - intros i j. split; [apply S|]. unfold distance_over_average_size. rewrite (S i j). unfold average_size. f_equal. ring.
  - intros i. split; [apply Z|]. unfold distance_over_average_size. rewrite Z. unfold Rdiv. ring.
  - intros i j Hi Hj. destruct (partner_place p i Hi) as [P1 Q1]. destruct (partner_place p j Hj) as [P2 Q2]. fold other in P1, P2, Q1, Q2.
    assert (D : distance_matrix p (other i) (other j) = norm (vsub (bead_positions p j) (bead_positions p i))) by (unfold distance_matrix; rewrite P1, P2; reflexivity).
    split; [rewrite D; apply norm_vsub_sym|].
    unfold distance_over_average_size, average_size, scaled_distance. rewrite D, Q1, Q2. unfold Rdiv.
    replace (5 * / 10 * (bead_sizes p j + bead_sizes p i)) with ((bead_sizes p i + bead_sizes p j) * / 2) by field.
    rewrite Rinv_mult, Rinv_inv. ring.
  - intros i Hi. unfold other, partner, n in *.
    destruct (Nat.ltb_spec i (num_spheres p)) as [L|L]; [split; [lia|destruct (Nat.ltb_spec i (num_spheres p)); [reflexivity|lia]]|].
    destruct (Nat.ltb_spec i (num_spheres p + num_dumbbells p)) as [M|M]; split; try lia.
    + destruct (Nat.ltb_spec (i + num_dumbbells p) (num_spheres p)); [lia|]. destruct (Nat.ltb_spec (i + num_dumbbells p) (num_spheres p + num_dumbbells p)); lia.
    + destruct (Nat.ltb_spec (i - num_dumbbells p) (num_spheres p)); [lia|]. destruct (Nat.ltb_spec (i - num_dumbbells p) (num_spheres p + num_dumbbells p)); lia.
Qed.
Print Assumptions C103_tables.

(** So a pair is given a near field exactly if its entry, with the beads
    exchanged, is below twice the cutoff factor. *)
Theorem C103_close :
  forall error printout p tables error' cutoff_factor i j,
    are_some_of_the_particles_too_close error printout p = (Some tables, error') ->
    (i <= j < num_spheres p + 2 * num_dumbbells p)%nat ->
    let other := partner (num_spheres p) (num_dumbbells p) in
    (snd tables (other i) (other j) < 2 * cutoff_factor <->
     exists t, In t (close_particles_free (bead_positions p) (bead_sizes p) (num_spheres p + 2 * num_dumbbells p) cutoff_factor) /\
               cp1 t = i /\ cp2 t = j /\ cp_dist t = snd tables (other i) (other j)).
Proof.
  intros er pr p T er' cf i j E Hij other.
  destruct (C103_tables er pr p T er' E) as (_ & _ & P & _). cbv zeta in P. fold other in P.
  destruct (P i j ltac:(lia) ltac:(lia)) as [_ PD]. rewrite PD. split.
  - intros L. exists (mkCpair i j (vscal (2 / (bead_sizes p i + bead_sizes p j)) (vsub (bead_positions p j) (bead_positions p i)))
      (scaled_distance (bead_positions p) (bead_sizes p) i j) (bead_sizes p j / bead_sizes p i)). cbn [cp1 cp2 cp_dist].
    split; [|repeat split]. apply free_in. cbn [cp1 cp2]. repeat split; try lia. exact L.
  - intros (t & I & C1 & C2 & C3). apply free_in in I. destruct I as (_ & L & _). rewrite C1, C2 in L. exact L.
Qed.
Print Assumptions C103_close.

(** Whatever the tables show, the flag comes back as it was; they are printed
    exactly if printout is positive. *)
Theorem C103_flag :
  forall error printout p,
    snd (are_some_of_the_particles_too_close error printout p) = error /\
    (fst (are_some_of_the_particles_too_close error printout p) = None <-> printout = 0%nat).
Proof.
  intros er pr p. split; [reflexivity|]. unfold are_some_of_the_particles_too_close. cbn [fst].
  destruct (Nat.ltb_spec 0 pr); split; intros; try discriminate; try lia; reflexivity.
Qed.
Print Assumptions C103_flag.

Lemma norm_eq_iff x y : norm x = norm y <-> dot3 x x = dot3 y y.
Proof.
  unfold norm, dot3. split; intros H.
  - assert (X : forall v : vec, sqrt (v 0%nat ^ 2 + v 1%nat ^ 2 + v 2%nat ^ 2) * sqrt (v 0%nat ^ 2 + v 1%nat ^ 2 + v 2%nat ^ 2) = v 0%nat * v 0%nat + v 1%nat * v 1%nat + v 2%nat * v 2%nat).
    { intros v. rewrite sqrt_sqrt; [ring|nra]. }
    rewrite <- (X x), <- (X y), H. reflexivity.
  - f_equal. nra.
Qed.

(** With the numbers as they are the table is right for a sphere and a bead only
    if the sphere is as far from one bead as from the other. *)
Theorem C103_labels_refuted :
  forall error printout p tables error' i d,
    are_some_of_the_particles_too_close error printout p = (Some tables, error') ->
    (i < num_spheres p)%nat -> (d < num_dumbbells p)%nat ->
    let b := (num_spheres p + d)%nat in
    (fst tables i b = norm (vsub (bead_positions p i) (bead_positions p b)) <->
     dot3 (dumbbell_deltax p d) (vsub (dumbbell_positions p d) (sphere_positions p i)) = 0).
Proof.
  intros er pr p T er' i d E Hi Hd b. unfold are_some_of_the_particles_too_close in E. destruct (Nat.ltb 0 pr); [|discriminate].
  injection E as E _. subst T b. cbn [fst]. unfold distance_matrix. rewrite norm_eq_iff.
  unfold separation_positions, bead_positions.
  destruct (Nat.ltb_spec i (num_spheres p)); [|lia]. destruct (Nat.ltb_spec (num_spheres p + d) (num_spheres p)); [lia|].
  destruct (Nat.ltb_spec (num_spheres p + d) (num_spheres p + num_dumbbells p)); [|lia].
  replace (num_spheres p + d - num_spheres p)%nat with d by lia. unfold dot3, vsub, vadd, vscal. split; intros; nra.
Qed.
Print Assumptions C103_labels_refuted.

(** One sphere and one dumbbell, whose second bead is next to the sphere: the
    near field acts between particles 0 and 2, but the table shows particle 1
    near the sphere. *)
Definition sphere_near_second : posdata :=
  mkPos 1 1 (fun _ => 1) (fun _ => v3 0 0 0) (fun _ => 1) (fun _ => v3 7 0 0) (fun _ => v3 (- (8)) 0 0).
Lemma norm_x x : 0 <= x -> norm (v3 x 0 0) = x.
Proof. intros H. unfold norm. cbn [v3]. replace (x ^ 2 + 0 ^ 2 + 0 ^ 2) with (Rsqr x) by (unfold Rsqr; ring). apply sqrt_Rsqr, H. Qed.
Theorem C103_example :
  forall error, exists tables, are_some_of_the_particles_too_close error 1 sphere_near_second = (Some tables, error) /\
    snd tables 0%nat 1%nat = 3 /\ snd tables 0%nat 2%nat = 11 /\
    forall t, In t (close_particles_free (bead_positions sphere_near_second) (bead_sizes sphere_near_second) 3 2) ->
      cp1 t <> cp2 t -> cp1 t = 0%nat /\ cp2 t = 2%nat /\ cp_dist t = 3.
Proof.
  intros er. exists (distance_matrix sphere_near_second, distance_over_average_size sphere_near_second). split; [reflexivity|]. cbn [snd].
  assert (N : forall v x, 0 <= x -> (forall l, (l < 3)%nat -> v l = v3 x 0 0 l) -> norm v = x).
  { intros v x Hx H. rewrite <- (norm_x x Hx). unfold norm. rewrite !H by lia. reflexivity. }
  assert (M : forall v x, 0 <= x -> (forall l, (l < 3)%nat -> v l = v3 (- x) 0 0 l) -> norm v = x).
  { intros v x Hx H. rewrite <- (norm_x x Hx). unfold norm. rewrite !H by lia. cbn [v3]. f_equal. ring. }
  split; [|split].
  - unfold distance_over_average_size, distance_matrix, average_size. rewrite (N _ 3); [cbn; field|lra|].
    intros l Hl. idx3 Hl; cbn; unfold vsub, vadd, vscal, v3; lra.
  - unfold distance_over_average_size, distance_matrix, average_size. rewrite (N _ 11); [cbn; field|lra|].
    intros l Hl. idx3 Hl; cbn; unfold vsub, vadd, vscal, v3; lra.
  - intros t I D. apply free_in in I. destruct I as (B & L & E). rewrite E. cbn [cp1 cp2 cp_dist].
    destruct (cp1 t) as [|[|k1]], (cp2 t) as [|[|[|k2]]]; try lia.
    + exfalso. unfold scaled_distance in L. rewrite (N _ 11) in L; [cbn in L; lra|lra|]. intros l Hl. idx3 Hl; cbn; unfold vsub, vadd, vscal, v3; lra.
    + split; [reflexivity|]. split; [reflexivity|]. unfold free_record. cbn [cp_dist]. unfold scaled_distance. rewrite (N _ 3); [cbn; field|lra|].
      intros l Hl. idx3 Hl; cbn; unfold vsub, vadd, vscal, v3; lra.
    + exfalso. unfold scaled_distance in L. rewrite (M _ 8) in L; [cbn in L; lra|lra|]. intros l Hl. idx3 Hl; cbn; unfold vsub, vadd, vscal, v3; lra.
Qed.
Print Assumptions C103_example.
