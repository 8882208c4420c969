(** C45: rotation used in the plots, and the outlines drawn.  C48: arrows. *)
From Coq Require Import Reals List Arith Bool Lia Lra.
From Verif Require Import Spec_Step Base Model_Mob Model_Close Model_Step Model_Graphics Proof_Graphics.
Import ListNotations.
Local Open Scope R_scope.

(** Orthogonal with determinant 1, and fixes [d]. *)
Theorem C45_rotation d :
  norm d <> 0 -> norm d <= 1 ->
  let M := fst (rotation_matrix d) in
  (forall i j, (i < 3)%nat -> (j < 3)%nat ->
     rsum 3 (fun k => M k i * M k j) = delta i j /\ rsum 3 (fun k => M i k * M j k) = delta i j) /\
  det3 M = 1 /\ (forall i, (i < 3)%nat -> mvec 3 M d i = d i).
Proof.
  intros H0 H1 M. destruct (rotation_eq d H0) as [E _]. fold M in E. rewrite E.
  pose proof (dot3_scale_norm d H0) as He. pose proof (cs_one d H1) as Hcs.
  split; [intros i j; exact (rot_orthogonal _ _ _ He Hcs i j)|]. split; [exact (rot_det _ _ _ He Hcs)|].
  intros i Hi. rewrite rot_apply by exact Hi.
  assert (D : dot3 (fun k => d k / norm d) d = norm d).
  { transitivity (dot3 d d / norm d); [unfold dot3; field; exact H0|]. rewrite <- norm_sq. field. exact H0. }
  rewrite D. unfold cross. idx3 Hi; cbn [v3]; field; exact H0.
Qed.
Print Assumptions C45_rotation.

(** The angle: a vector across [d] is turned by the angle with sine |d| (at most
    a right angle), clockwise about [d]. *)
Theorem C45_angle d v :
  norm d <> 0 -> norm d <= 1 -> dot3 d v = 0 ->
  let M := fst (rotation_matrix d) in
  dot3 v (mvec 3 M v) = sqrt (1 - norm d ^ 2) * dot3 v v /\
  (forall i, (i < 3)%nat -> cross v (mvec 3 M v) i = - (dot3 v v * d i)).
Proof.
  intros H0 H1 Hv M. destruct (rotation_eq d H0) as [E _]. fold M in E. rewrite E.
  assert (D : dot3 (fun k => d k / norm d) v = 0).
  { transitivity (dot3 d v / norm d); [unfold dot3; field; exact H0|]. rewrite Hv. field. exact H0. }
  split.
  - unfold dot3 at 1. rewrite !rot_apply by lia. rewrite !D. unfold cross. cbn [v3]. unfold dot3. field. exact H0.
  - intros i Hi. unfold cross at 1. rewrite !rot_apply by lia. rewrite !D. unfold cross. unfold dot3 in Hv |- *.
    set (c := sqrt _). idx3 Hi; cbn [v3].
    + transitivity (v 0%nat * (d 0%nat * v 0%nat + d 1%nat * v 1%nat + d 2%nat * v 2%nat)
                    - (v 0%nat * v 0%nat + v 1%nat * v 1%nat + v 2%nat * v 2%nat) * d 0%nat); [field; exact H0|rewrite Hv; ring].
    + transitivity (v 1%nat * (d 0%nat * v 0%nat + d 1%nat * v 1%nat + d 2%nat * v 2%nat)
                    - (v 0%nat * v 0%nat + v 1%nat * v 1%nat + v 2%nat * v 2%nat) * d 1%nat); [field; exact H0|rewrite Hv; ring].
    + transitivity (v 2%nat * (d 0%nat * v 0%nat + d 1%nat * v 1%nat + d 2%nat * v 2%nat)
                    - (v 0%nat * v 0%nat + v 1%nat * v 1%nat + v 2%nat * v 2%nat) * d 2%nat); [field; exact H0|rewrite Hv; ring].
Qed.
Print Assumptions C45_angle.

(** No rotation for the zero vector; otherwise the argument is normalised. *)
Theorem C45_argument d :
  (norm d = 0 -> fst (rotation_matrix d) = delta /\ snd (rotation_matrix d) = d) /\
  (norm d <> 0 -> (forall i, d i = norm d * snd (rotation_matrix d) i) /\ norm (snd (rotation_matrix d)) = 1).
Proof.
  split; intros H.
  - unfold rotation_matrix, Reqb. destruct (Req_EM_T (norm d) 0); [auto|contradiction].
  - destruct (rotation_eq d H) as [_ ->]. split; [intros i; field; exact H|].
    apply unit_norm, dot3_scale_norm, H.
Qed.
Print Assumptions C45_argument.

(** The outline of a sphere is drawn in the plane through its centre that
    faces the viewer, at its distance from the centre. *)
Theorem C45_circle verts position elev azim :
  -180 <= elev <= 180 ->
  let view := v3 (cos (elev * PI / 180) * cos (azim * PI / 180)) (cos (elev * PI / 180) * sin (azim * PI / 180)) (sin (elev * PI / 180)) in
  length (drawn_circle verts position elev azim) = length verts /\
  forall k, (k < length verts)%nat ->
    let r := vsub (nth k (drawn_circle verts position elev azim) (v3 0 0 0)) position in
    dot3 view r = 0 /\ dot3 r r = fst (nth k verts (0, 0)) ^ 2 + snd (nth k verts (0, 0)) ^ 2.
Proof.
  intros He view. unfold drawn_circle, pathpatch_translate, pathpatch_2d_to_3d. rewrite !map_length. split; [reflexivity|].
  intros k Hk. rewrite map_map.
  erewrite nth_indep by (rewrite map_length; exact Hk). rewrite map_nth with (d := (0, 0)). cbv zeta beta.
  set (n := fun i => normal elev azim i / norm (normal elev azim)).
  pose proof (normal_unit elev azim) as Hu. pose proof (unit_norm _ Hu) as Hn.
  assert (En : forall i, n i = normal elev azim i) by (intros i; unfold n; rewrite Hn; field).
  assert (Nu : dot3 n n = 1) by (unfold dot3; rewrite !En; exact Hu).
  assert (Nz : 0 <= n 2%nat) by (rewrite En; apply normal_up; exact He).
  destruct (nth k verts (0, 0)) as [x y]. cbn [fst snd].
  destruct (point_image n x y Nu Nz) as [_ [P1 P2]].
  set (m := mvec 3 (fst (rotation_matrix (cross n (v3 0 0 1)))) (v3 x y 0)) in *.
  assert (Hr : forall i, (i < 3)%nat -> vsub (vadd (vadd m (v3 0 0 0)) (v3 (position 0%nat) (position 1%nat) (position 2%nat))) position i = m i).
  { intros i Hi. unfold vsub, vadd. idx3 Hi; cbn [v3]; ring. }
  destruct (normal_view elev azim He) as [sg [Hsg Hv]]. fold view in Hv.
  split.
  - unfold dot3. rewrite !Hr by lia. unfold dot3 in P1. rewrite !En, !Hv in P1 by lia. destruct Hsg; subst sg; lra.
  - unfold dot3. rewrite !Hr by lia. exact P2.
Qed.
Print Assumptions C45_circle.

(** A view from below. *)
Example C45_example : -180 <= -30 <= 180 /\ normal (-30) 0 2%nat = 1 / 2 /\ norm (v3 (3 / 5) 0 0) = 3 / 5.
Proof.
  split; [lra|]. split.
  - unfold normal. cbn [v3]. unfold from0topi, Rltb. pose proof PI_RGT_0. destruct (Rlt_dec (-30 * PI / 180) 0); [|nra].
    replace (-30 * PI / 180) with (- (PI / 6)) by field. rewrite neg_sin, sin_neg, sin_PI6. lra.
  - unfold norm. cbn [v3]. replace ((3 / 5) ^ 2 + 0 ^ 2 + 0 ^ 2) with ((3 / 5) * (3 / 5)) by field. apply sqrt_square. lra.
Qed.

(** (Finding) For a normal that points down the circle is not perpendicular to
    it; [normal] never returns one for elevations within half a turn. *)
Theorem C45_downward_refuted :
  exists n, dot3 n n = 1 /\
    let M := fst (rotation_matrix (cross n (v3 0 0 1))) in dot3 n (mvec 3 M (v3 1 0 0)) <> 0.
Proof.
  exists (v3 (3 / 5) 0 (- (4 / 5))). split; [unfold dot3; cbn [v3]; field|]. intros M.
  set (d := cross (v3 (3 / 5) 0 (- (4 / 5))) (v3 0 0 1)) in *.
  assert (d0 : d 0%nat = 0) by (unfold d, cross; cbn [v3]; ring).
  assert (d1 : d 1%nat = - (3 / 5)) by (unfold d, cross; cbn [v3]; ring).
  assert (d2 : d 2%nat = 0) by (unfold d, cross; cbn [v3]; ring).
  assert (Hn : norm d = 3 / 5).
  { unfold norm. rewrite d0, d1, d2. replace (0 ^ 2 + (- (3 / 5)) ^ 2 + 0 ^ 2) with ((3 / 5) * (3 / 5)) by field. apply sqrt_square. lra. }
  assert (Z : norm d <> 0) by lra. destruct (rotation_eq d Z) as [E _]. fold M in E. rewrite E, Hn.
  replace (sqrt (1 - (3 / 5) ^ 2)) with (4 / 5)
    by (replace (1 - (3 / 5) ^ 2) with ((4 / 5) * (4 / 5)) by field; symmetry; apply sqrt_square; lra).
  unfold dot3. rewrite !rot_apply by lia. unfold dot3, cross. cbn [v3]. rewrite d0, d1, d2. lra.
Qed.
Print Assumptions C45_downward_refuted.

(** ** C48 *)
(** (Finding) Arrows for forces: the k-th arrow drawn (from 0) is 6^(k+1) times
    the force, although one scale is intended. *)
Theorem C48_forces n position f :
  let shown := filter (fun i => nonzero (f i) && visible (position i)) (seq 0 n) in
  length (force_lines n position f) = length shown /\
  forall k, (k < length shown)%nat ->
    fst (nth k (force_lines n position f) (v3 0 0 0, v3 0 0 0)) = position (nth k shown 0%nat) /\
    forall j, snd (nth k (force_lines n position f) (v3 0 0 0, v3 0 0 0)) j
      = position (nth k shown 0%nat) j + 6 ^ (k + 1) * f (nth k shown 0%nat) j.
Proof. exact (force_lines_ok n position f). Qed.
Print Assumptions C48_forces.

(** Two spheres under the same force get different arrows. *)
Theorem C48_common_scale_refuted :
  exists position f, f 0%nat = f 1%nat /\
    length (force_lines 2 position f) = 2%nat /\
    let arrow k := nth k (force_lines 2 position f) (v3 0 0 0, v3 0 0 0) in
    (forall k, (k < 2)%nat -> fst (arrow k) = position k) /\
    snd (arrow 0%nat) 2%nat - position 0%nat 2%nat = -6 /\ snd (arrow 1%nat) 2%nat - position 1%nat 2%nat = -36.
Proof.
  set (position := fun i => v3 (3 * INR i) 0 0). set (f := fun i : nat => v3 0 0 (-1)). exists position, f.
  assert (S : filter (fun i => nonzero (f i) && visible (position i)) (seq 0 2) = [0; 1]%nat).
  { unfold f, nonzero, visible, position, Reqb, Rltb. cbn [seq filter v3].
    repeat (match goal with |- context [Req_EM_T ?a ?b] => destruct (Req_EM_T a b); try (exfalso; lra) end).
    repeat (match goal with |- context [Rlt_dec ?a ?b] => destruct (Rlt_dec a b); try (exfalso; lra) end). reflexivity. }
  destruct (force_lines_ok 2 position f) as [L A]. unfold shown in *. rewrite S in L, A.
  split; [reflexivity|]. split; [exact L|]. cbv zeta beta. cbn [length] in A. split; [|split].
  - intros k Hk. destruct (A k Hk) as [B _]. rewrite B. destruct k as [|[|]]; [reflexivity|reflexivity|lia].
  - destruct (A 0%nat ltac:(lia)) as [_ B]. rewrite B. cbn [nth]. unfold f. cbn [v3 pow Nat.add]. ring.
  - destruct (A 1%nat ltac:(lia)) as [_ B]. rewrite B. cbn [nth]. unfold f. cbn [v3 pow Nat.add]. ring.
Qed.
Print Assumptions C48_common_scale_refuted.

(** Dumbbells are drawn with their outlines centred on the two beads of the
    hydrodynamics, each in the plane through the bead that faces the viewer; the
    bar joins them. *)
Theorem C45_dumbbell verts position dx elev azim :
  -180 <= elev <= 180 ->
  let view := v3 (cos (elev * PI / 180) * cos (azim * PI / 180)) (cos (elev * PI / 180) * sin (azim * PI / 180)) (sin (elev * PI / 180)) in
  let ends := dumbbell_ends position dx in
  (forall l, fst ends l = bead_minus position dx l /\ snd ends l = bead_plus position dx l /\
             snd ends l - fst ends l = dx l /\ (fst ends l + snd ends l) / 2 = position l) /\
  forall b, b = fst ends \/ b = snd ends -> forall k, (k < length verts)%nat ->
    dot3 view (vsub (nth k (drawn_circle verts b elev azim) (v3 0 0 0)) b) = 0.
Proof.
  intros He view ends. split.
  - intros l. unfold ends, dumbbell_ends, bead_minus, bead_plus, fst, snd, vsub, vadd, vscal. repeat split; field.
  - intros b _ k Hk. destruct (C45_circle verts b elev azim He) as [_ H]. apply (H k Hk).
Qed.
Print Assumptions C45_dumbbell.
