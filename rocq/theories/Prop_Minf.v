(** Properties C09-C14: the far-field grand mobility matrix. *)
From Coq Require Import Reals Arith Bool List Lia Lra.
From Verif Require Import Base Model_Pack Model_Mob Model_Layout Model_Minf Model_L Model_Grand
  Spec_Layout Spec_Minf Spec_L Proof_Mob Proof_Minf Proof_Minf2 Proof_Minf3 Proof_Minf4 Proof_L.
Local Open Scope R_scope.

(** C09 *)
Theorem C09_symmetric :
  forall bb p mu, msym (11 * num_spheres p + 6 * num_dumbbells p) (generate_Minfinity bb p mu).
Proof. exact gen_sym. Qed.
Print Assumptions C09_symmetric.

(** C10, bead level: every block of the assembled matrix, for every ordered
    pair of beads and every kind of motion and moment. *)
Theorem C10_every_block :
  forall bb x a Ns Nd c mu k1 p k2 q i j,
    kvalid Ns Nd k1 p -> kvalid Ns Nd k2 q -> (i < ksize k1)%nat -> (j < ksize k2)%nat ->
    distinct_beads (Ns + 2 * Nd) x a ->
    generate_Minfinity_loop bb x a Ns Nd c mu (kstart Ns k1 p + i)%nat (kstart Ns k2 q + j)%nat =
    bead_mobility bb (fun p q => pair_geometry (x p) (x q) (a p) (a q)) a c mu k1 p k2 q i j.
Proof. exact loop_entry. Qed.
Print Assumptions C10_every_block.

(** C10: numbering the spheres by [s] and the dumbbells by [t] instead permutes
    rows and columns of the returned matrix accordingly. *)
Theorem C10_relabelling :
  forall bb p mu s t,
    permutes (num_spheres p) s -> permutes (num_dumbbells p) t ->
    distinct_beads (num_spheres p + 2 * num_dumbbells p) (bead_positions p) (bead_sizes p) ->
    let Ns := num_spheres p in
    let Nd := num_dumbbells p in
    forall k1 b k2 b' i j,
      kvalid Ns Nd k1 b -> kvalid Ns Nd k2 b' -> (i < ksize k1)%nat -> (j < ksize k2)%nat ->
      generate_Minfinity bb (relabel s t p) mu (kstart Ns k1 b + i)%nat (kstart Ns k2 b' + j)%nat =
      generate_Minfinity bb p mu (kstart Ns k1 (bead_relabel s t Ns Nd b) + i)%nat
                                 (kstart Ns k2 (bead_relabel s t Ns Nd b') + j)%nat.
Proof.
  intros bb p mu s t Hs Ht HD Ns Nd k1 b k2 b' i j V1 V2 Hi Hj.
  exact (gen_relabel bb p mu s t Hs Ht k1 b k2 b' i j HD V1 V2 Hi Hj).
Qed.
Print Assumptions C10_relabelling.

(** A configuration meeting the hypotheses: two spheres and a dumbbell on a
    line, spheres swapped. *)
Definition ex_pos : posdata :=
  mkPos 2 1 (fun i => match i with O => 1 | _ => 2 end) (fun i => v3 (10 * INR i) 0 0)
    (fun _ => 1) (fun _ => v3 0 20 0) (fun _ => v3 4 0 0).

Lemma norm_ge_comp r i : (i < 3)%nat -> Rabs (r i) <= norm r.
Proof.
  intros Hi. unfold norm. rewrite <- sqrt_Rsqr_abs. apply sqrt_le_1_alt. unfold Rsqr.
  pose proof (Rle_0_sqr (r 0%nat)) as H0. pose proof (Rle_0_sqr (r 1%nat)) as H1. pose proof (Rle_0_sqr (r 2%nat)) as H2.
  unfold Rsqr in *. idx3 Hi; simpl; lra.
Qed.

Lemma e10_lt_1 : / 10 ^ 10 < 1.
Proof. rewrite <- Rinv_1. apply Rinv_lt_contravar; simpl; lra. Qed.

Example C10_example :
  distinct_beads (num_spheres ex_pos + 2 * num_dumbbells ex_pos) (bead_positions ex_pos) (bead_sizes ex_pos) /\
  permutes 2 (fun i => 1 - i)%nat /\ permutes 1 (fun i => i).
Proof.
  split; [|split; split; intros; lia].
  assert (Big : forall r i, (i < 3)%nat -> 1 <= Rabs (r i) -> / 10 ^ 10 < norm r).
  { intros r i Hi H. pose proof (norm_ge_comp r i Hi). pose proof e10_lt_1. lra. }
  assert (Rp : forall y, 1 <= y -> 1 <= Rabs y) by (intros; rewrite Rabs_pos_eq; lra).
  assert (Rn : forall y, y <= -1 -> 1 <= Rabs y) by (intros; rewrite Rabs_left1; lra).
  split.
  - intros b Hb. simpl in Hb. destruct b as [|[|[|[|b]]]]; [| | | |lia]; unfold bead_sizes; simpl; lra.
  - intros b b' Hb Hb' Hne. simpl in Hb, Hb'.
    destruct b as [|[|[|[|b]]]]; [| | | |lia]; (destruct b' as [|[|[|[|b']]]]; [| | | |lia]);
    try (exfalso; apply Hne; reflexivity);
    first [ apply (Big _ 0%nat ltac:(lia)); apply Rp; unfold bead_positions, vsub, vadd, vscal, v3; simpl; lra
          | apply (Big _ 0%nat ltac:(lia)); apply Rn; unfold bead_positions, vsub, vadd, vscal, v3; simpl; lra
          | apply (Big _ 1%nat ltac:(lia)); apply Rp; unfold bead_positions, vsub, vadd, vscal, v3; simpl; lra
          | apply (Big _ 1%nat ltac:(lia)); apply Rn; unfold bead_positions, vsub, vadd, vscal, v3; simpl; lra ].
Qed.

(** C11 *)
Theorem C11_translation :
  forall bb p mu d, generate_Minfinity bb (translate d p) mu = generate_Minfinity bb p mu.
Proof. exact gen_translate. Qed.
Print Assumptions C11_translation.

Theorem C11_viscosity :
  forall bb p mu k r t,
    (r < 11 * num_spheres p + 6 * num_dumbbells p)%nat ->
    (t < 11 * num_spheres p + 6 * num_dumbbells p)%nat ->
    generate_Minfinity bb p (k * mu) r t = / k * generate_Minfinity bb p mu r t.
Proof. exact gen_mu. Qed.
Print Assumptions C11_viscosity.

(** C12: the blocks of a sphere with itself, in any configuration. *)
Theorem C12_self_blocks :
  forall bb p mu k1 k2 b i j,
    (b < num_spheres p)%nat -> k1 <> KB -> k2 <> KB -> (i < ksize k1)%nat -> (j < ksize k2)%nat ->
    generate_Minfinity bb p mu (kstart (num_spheres p) k1 b + i)%nat (kstart (num_spheres p) k2 b + j)%nat =
    self_value k1 k2 (sphere_sizes p b) mu i j.
Proof. exact gen_self. Qed.
Print Assumptions C12_self_blocks.

(** C12: for a lone sphere the drag matrix times 6 pi inverts the mobility. *)
Theorem C12_drag_is_inverse_up_to_6pi :
  forall bb p mu r t, num_spheres p = 1%nat -> num_dumbbells p = 0%nat ->
    0 < mu -> 0 < sphere_sizes p 0%nat -> (r < 11)%nat -> (t < 11)%nat ->
    mmul 11 (drag_Minfinity_inverse p mu) (generate_Minfinity bb p mu) r t = / (6 * PI) * delta r t.
Proof. exact drag_lone. Qed.
Print Assumptions C12_drag_is_inverse_up_to_6pi.

Definition lone : posdata :=
  mkPos 1 0 (fun _ => 1) (fun _ => v3 0 0 0) (fun _ => 1) (fun _ => v3 0 0 0) (fun _ => v3 0 0 0).

(** C12: so use_drag_Minfinity does not give the inverse of the mobility. *)
Theorem C12_drag_refuted :
  exists p mu, num_spheres p = 1%nat /\ num_dumbbells p = 0%nat /\ 0 < mu /\ 0 < sphere_sizes p 0%nat /\
    forall inv last, ~ is_inv 11 (generate_Minfinity true p mu) (Minfinity_inverse inv true p mu true true last).
Proof.
  exists lone, 1. repeat split; try reflexivity; try (simpl; lra).
  intros inv last H. destruct (H 0%nat 0%nat ltac:(lia) ltac:(lia)) as [_ E]. simpl Minfinity_inverse in E.
  rewrite (drag_lone true lone 1 0 0) in E by (try reflexivity; try lia; simpl; lra).
  unfold delta in E. simpl in E. rewrite Rmult_1_r in E.
  pose proof PI_RGT_0. pose proof PI2_1 as P. unfold PI2 in P.
  assert (/ (6 * PI) < 1); [|lra]. rewrite <- Rinv_1. apply Rinv_lt_contravar; lra.
Qed.
Print Assumptions C12_drag_refuted.

(** C13: two spheres more than 1e-8 apart are evaluated at separation
    max(s, 2.001 (a1+a2)/2), along the true direction. *)
Theorem C13_repaired_separation :
  forall bb p mu k1 b k2 b' i j,
    (b < num_spheres p)%nat -> (b' < num_spheres p)%nat -> b <> b' ->
    k1 <> KB -> k2 <> KB -> (i < ksize k1)%nat -> (j < ksize k2)%nat ->
    0 < sphere_sizes p b -> 0 < sphere_sizes p b' ->
    / 10 ^ 8 < norm (vsub (sphere_positions p b) (sphere_positions p b')) ->
    let l := used_separation (sphere_positions p b) (sphere_positions p b') (sphere_sizes p b) (sphere_sizes p b') in
    generate_Minfinity bb p mu (kstart (num_spheres p) k1 b + i)%nat (kstart (num_spheres p) k2 b' + j)%nat =
    pmob k1 k2 (along (sphere_positions p b) (sphere_positions p b') l) l
      (sphere_sizes p b) (sphere_sizes p b') (1 / (8 * PI * mu)) mu i j.
Proof. exact gen_pair_used. Qed.
Print Assumptions C13_repaired_separation.

(** C13 for any pair of beads. *)
Theorem C13_pair_geometry :
  forall x1 x2 a1 a2, 0 < a1 + a2 -> / 10 ^ 8 < norm (vsub x1 x2) ->
    snd (pair_geometry x1 x2 a1 a2) = used_separation x1 x2 a1 a2 /\
    (forall i, (i < 3)%nat ->
       fst (pair_geometry x1 x2 a1 a2) i = along x1 x2 (used_separation x1 x2 a1 a2) i) /\
    norm (fst (pair_geometry x1 x2 a1 a2)) = used_separation x1 x2 a1 a2.
Proof. exact geom_used. Qed.
Print Assumptions C13_pair_geometry.

Definition ex_overlap (s : R) : posdata :=
  mkPos 2 0 (fun _ => 1) (fun i => match i with O => v3 s 0 0 | _ => v3 0 0 0 end)
    (fun _ => 1) (fun _ => v3 0 0 0) (fun _ => v3 0 0 0).

Lemma norm_x s : 0 <= s -> norm (vsub (v3 s 0 0) (v3 0 0 0)) = s.
Proof.
  intros H. unfold norm, vsub, v3. transitivity (sqrt (s * s)); [f_equal; ring|]. apply sqrt_square. exact H.
Qed.

Example C13_example :
  / 10 ^ 8 < norm (vsub (sphere_positions (ex_overlap 1) 0) (sphere_positions (ex_overlap 1) 1)) /\
  used_separation (sphere_positions (ex_overlap 1) 0) (sphere_positions (ex_overlap 1) 1) 1 1 = 2001 / 1000.
Proof.
  unfold used_separation. simpl sphere_positions. rewrite norm_x by lra. split.
  - pose proof e10_lt_1. rewrite <- Rinv_1. apply Rinv_lt_contravar; simpl; lra.
  - rewrite Rmax_right by lra. lra.
Qed.

(** C13 fails for distinct spheres closer than 1e-8: the block is evaluated at
    the true separation, 5e-9, and even has the opposite sign. *)
Theorem C13_closer_than_1e8_refuted :
  exists p mu, num_spheres p = 2%nat /\ num_dumbbells p = 0%nat /\ 0 < mu /\
    sphere_sizes p 0%nat = 1 /\ sphere_sizes p 1%nat = 1 /\
    0 < norm (vsub (sphere_positions p 0%nat) (sphere_positions p 1%nat)) /\
    let l := used_separation (sphere_positions p 0%nat) (sphere_positions p 1%nat) 1 1 in
    generate_Minfinity true p mu 0%nat 3%nat < 0 /\
    0 < pmob KU KU (along (sphere_positions p 0%nat) (sphere_positions p 1%nat) l) l 1 1 (1 / (8 * PI * mu)) mu 0 0.
Proof.
  set (s := / (2 * 10 ^ 8)).
  assert (P8 : 0 < 10 ^ 8) by (apply pow_lt; lra).
  assert (Hs : 0 < s) by (apply Rinv_0_lt_compat; lra).
  assert (Hs1 : s < 1 / 2).
  { unfold s. replace (1 / 2) with (/ 2) by lra. apply Rinv_lt_contravar; [simpl; lra|]. simpl; lra. }
  assert (Hs8 : ~ / 10 ^ 8 < s).
  { apply Rle_not_lt. unfold s. apply Rinv_le_contravar; lra. }
  assert (HsT : tiny < s).
  { unfold s, tiny. apply Rinv_lt_contravar; [apply Rmult_lt_0_compat; [lra|apply pow_lt; lra]|].
    replace (10 ^ 10) with (100 * 10 ^ 8) by (simpl; ring). lra. }
  pose proof PI_RGT_0 as HPI.
  assert (Hc : 0 < 1 / (8 * PI * 1)) by (apply Rdiv_lt_0_compat; lra).
  exists (ex_overlap s), 1. repeat split; try reflexivity; try lra.
  - simpl sphere_positions. rewrite norm_x by lra. exact Hs.
  - pose proof (sphere_ent true (ex_overlap s) 1 KU 0 KU 1 0 0 ltac:(simpl; lia) ltac:(simpl; lia)
       ltac:(discriminate) ltac:(discriminate) ltac:(simpl; lia) ltac:(simpl; lia)) as E.
    simpl num_spheres in E. simpl kstart in E. simpl Nat.add in E. rewrite E. clear E.
    unfold minf_loop. rewrite loop_pair; simpl num_spheres; simpl num_dumbbells.
    + unfold bead_mobility, bead_positions, bead_sizes. simpl.
      unfold pair_geometry. rewrite norm_x by lra.
      destruct (Rlt_dec (/ 10 ^ 8) s) as [H|_]; [contradiction|]. cbn [fst snd].
      unfold M11. destruct (Rlt_dec tiny s) as [_|]; [|contradiction].
      unfold J, Lap_J, vsub, v3, delta. simpl.
      apply Rlt_le_trans with (1 / (8 * PI * 1) * 0); [|lra].
      apply Rmult_lt_compat_l; [exact Hc|].
      replace (1 / s + (s - 0) * (s - 0) / (s * (s * (s * 1))) +
        (1 * (1 * 1) + 1 * (1 * 1)) / 6 * (2 * 1 / (s * (s * (s * 1))) - 6 * (s - 0) * (s - 0) / (s * (s * (s * (s * (s * 1)))))))
        with ((2 * (s * s) - 4 / 3) / (s * s * s)) by (field; lra).
      apply Rmult_lt_reg_r with (s * s * s); [repeat apply Rmult_lt_0_compat; assumption|].
      replace ((2 * (s * s) - 4 / 3) / (s * s * s) * (s * s * s)) with (2 * (s * s) - 4 / 3) by (field; lra).
      assert (s * s < 1 / 2 * (1 / 2)) by (apply Rmult_le_0_lt_compat; lra). lra.
    + simpl; lia.
    + simpl; lia.
    + simpl; lia.
    + simpl; lia.
    + discriminate.
    + unfold bead_sizes; simpl; lra.
    + unfold bead_positions; simpl. rewrite norm_x by lra. exact HsT.
  - simpl sphere_positions. unfold along, used_separation. rewrite norm_x by lra.
    rewrite Rmax_right by lra. unfold pmob, M11.
    assert (tiny < 1) by (pose proof e10_lt_1; unfold tiny; lra).
    destruct (Rlt_dec tiny (2001 / 1000 * ((1 + 1) / 2))) as [_|H']; [|exfalso; apply H'; lra].
    apply Rmult_lt_0_compat; [exact Hc|].
    unfold J, Lap_J, vscal, vsub, v3, delta. simpl.
    replace (2001 / 1000 * ((1 + 1) / 2) / s * (s - 0)) with (2001 / 1000) by (field; lra).
    replace (2001 / 1000 * ((1 + 1) / 2)) with (2001 / 1000) by lra. lra.
Qed.
Print Assumptions C13_closer_than_1e8_refuted.

(** C14: applied to total forces and force differences, the returned mobility
    gives mean velocities and half velocity differences of the beads, with the
    bead-level matrix in between; [M] is any bead-level matrix. *)
Theorem C14_mobility_transform :
  forall Ns Nd M f i, (i < 11 * Ns + 6 * Nd)%nat ->
    mvec (11 * Ns + 6 * Nd) (minf_transform Ns Nd M) (total_and_difference Ns Nd f) i =
    mean_and_half_difference Ns Nd (mvec (11 * Ns + 6 * Nd) M f) i.
Proof. exact minf_transform_mobility. Qed.
Print Assumptions C14_mobility_transform.

Theorem C14_resistance_transform :
  forall Ns Nd M u i, (i < 11 * Ns + 6 * Nd)%nat ->
    mvec (11 * Ns + 6 * Nd) (r2b_transform Ns Nd M) (mean_and_half_difference Ns Nd u) i =
    total_and_difference Ns Nd (mvec (11 * Ns + 6 * Nd) M u) i.
Proof. exact r2b_transform_resistance. Qed.
Print Assumptions C14_resistance_transform.

Theorem C14_power_preserved :
  forall Ns Nd f u,
    dot (11 * Ns + 6 * Nd) (total_and_difference Ns Nd f) (mean_and_half_difference Ns Nd u) =
    dot (11 * Ns + 6 * Nd) f u.
Proof. exact power_preserved. Qed.
Print Assumptions C14_power_preserved.

Theorem C14_transforms_inverse :
  forall Ns Nd M R, is_inv (11 * Ns + 6 * Nd) M R ->
    is_inv (11 * Ns + 6 * Nd) (minf_transform Ns Nd M) (r2b_transform Ns Nd R).
Proof. exact transforms_inverse. Qed.
Print Assumptions C14_transforms_inverse.

(** C14: the returned matrix is the transformed bead-level matrix, also
    without dumbbells. *)
Theorem C14_generate_Minfinity_transforms :
  forall bb p mu r t,
    (r < 11 * num_spheres p + 6 * num_dumbbells p)%nat ->
    (t < 11 * num_spheres p + 6 * num_dumbbells p)%nat ->
    generate_Minfinity bb p mu r t =
    minf_transform (num_spheres p) (num_dumbbells p)
      (generate_Minfinity_loop bb (bead_positions p) (bead_sizes p) (num_spheres p) (num_dumbbells p)
         (1 / (8 * PI * mu)) mu) r t.
Proof. exact gen_transform. Qed.
Print Assumptions C14_generate_Minfinity_transforms.

Example C14_example :
  is_inv 6 (fun i j => 2 * delta i j) (fun i j => / 2 * delta i j) /\
  total_and_difference 0 1 (fun i => INR i) 0%nat = 3 /\ mean_and_half_difference 0 1 (fun i => INR i) 3%nat = 3 / 2.
Proof.
  split; [|unfold total_and_difference, mean_and_half_difference; simpl; split; lra].
  intros i j Hi Hj. unfold mmul. split;
  [rewrite (rsum_ext 6 _ (fun l => delta i l * delta l j)) by (intros; field)
  |rewrite (rsum_ext 6 _ (fun l => delta i l * delta l j)) by (intros; field)];
  apply (rsum_delta_l 6 i (fun l => delta l j) Hi).
Qed.
