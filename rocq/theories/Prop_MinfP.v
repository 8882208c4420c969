(** Properties C52-C56: the periodic mobility matrix. *)
From Coq Require Import Reals Lra Lia Arith ZArith List Permutation.
From Verif Require Import Base Model_Pack Model_Mob Model_Layout Model_Minf Model_Close Model_Ewald Model_MinfP
  Spec_Layout Spec_Minf Spec_Calc Spec_Ewald Spec_Shear Spec_MinfP Proof_Mob2 Proof_Ewald5 Proof_MinfP1 Proof_MinfP2
  Proof_MinfP3 Proof_MinfP4 Proof_MinfP5 Proof_MinfP6 Proof_MinfP7 Proof_MinfP8 Proof_MinfP9 Proof_MinfP10 Proof_Periodic.
Local Open Scope R_scope.

(** C52, for every configuration, box, shear and number of images. *)
Theorem C52_symmetric :
  forall h bb p bl tr mu Ot Et st,
    msym (11 * num_spheres p + 6 * num_dumbbells p) (generate_Minfinity_periodic h bb p bl tr mu Ot Et st).
Proof. exact genP_sym. Qed.
Print Assumptions C52_symmetric.

(** C52: the erfc values left over from the previous pair never matter. *)
Theorem C52_stale_erfcs_harmless :
  forall h bb p bl tr mu Ot Et st st' r t,
    (r < 11 * num_spheres p + 6 * num_dumbbells p)%nat -> (t < 11 * num_spheres p + 6 * num_dumbbells p)%nat ->
    generate_Minfinity_periodic h bb p bl tr mu Ot Et st r t =
    generate_Minfinity_periodic h bb p bl tr mu Ot Et st' r t.
Proof. exact genP_stale. Qed.
Print Assumptions C52_stale_erfcs_harmless.

Theorem C52_translation :
  forall h bb p bl tr mu Ot Et st d r t,
    (r < 11 * num_spheres p + 6 * num_dumbbells p)%nat -> (t < 11 * num_spheres p + 6 * num_dumbbells p)%nat ->
    generate_Minfinity_periodic h bb (translate d p) bl tr mu Ot Et st r t =
    generate_Minfinity_periodic h bb p bl tr mu Ot Et st r t.
Proof. exact genP_translate. Qed.
Print Assumptions C52_translation.

Theorem C52_viscosity :
  forall h bb p bl tr mu Ot Et st k r t,
    (r < 11 * num_spheres p + 6 * num_dumbbells p)%nat -> (t < 11 * num_spheres p + 6 * num_dumbbells p)%nat ->
    generate_Minfinity_periodic h bb p bl tr (k * mu) Ot Et st r t =
    / k * generate_Minfinity_periodic h bb p bl tr mu Ot Et st r t.
Proof. exact genP_mu. Qed.
Print Assumptions C52_viscosity.

(** A particle pair to which this applies: entries in range. *)
Example C52_example : (11 * num_spheres exP + 6 * num_dumbbells exP = 17)%nat /\
  bead_positions exP 1 0%nat = 20 /\ bead_positions (translate (v3 1 2 3) exP) 1 0%nat = 21.
Proof.
  split; [reflexivity|]. unfold exP, bead_positions, translate, vadd, vsub, vscal. cbn. split; lra.
Qed.

(** C53, bead level: every block, for every ordered pair of beads and every
    kind of motion and moment. *)
Theorem C53_every_block :
  forall h bl tr Ot Et bb x a Ns Nd c mu st k1 p k2 q i j,
    let lat := build_lattice h bl tr Ot Et in
    apart lat (Ns + 2 * Nd) x a ->
    kvalid Ns Nd k1 p -> kvalid Ns Nd k2 q -> (i < ksize k1)%nat -> (j < ksize k2)%nat ->
    generate_Minfinity_periodic_loop lat bb x a Ns Nd c mu st (kstart Ns k1 p + i)%nat (kstart Ns k2 q + j)%nat =
    periodic_bead_mobility lat bb Nd (fun p q => pair_geometry (x p) (x q) (a p) (a q)) a c mu k1 p k2 q i j.
Proof.
  intros h bl tr Ot Et bb x a Ns Nd c mu st k1 p k2 q i j lat HA V1 V2 Hi Hj.
  apply loopP_entry; try assumption. apply X_reflected.
Qed.
Print Assumptions C53_every_block.

Theorem C53_relabelling :
  forall h bb p bl tr mu Ot Et st s t,
    permutes (num_spheres p) s -> permutes (num_dumbbells p) t ->
    let Ns := num_spheres p in
    let Nd := num_dumbbells p in
    apart (build_lattice h bl tr Ot Et) (Ns + 2 * Nd) (bead_positions p) (bead_sizes p) ->
    forall k1 b k2 b' i j,
      kvalid Ns Nd k1 b -> kvalid Ns Nd k2 b' -> (i < ksize k1)%nat -> (j < ksize k2)%nat ->
      generate_Minfinity_periodic h bb (relabel s t p) bl tr mu Ot Et st
        (kstart Ns k1 b + i)%nat (kstart Ns k2 b' + j)%nat =
      generate_Minfinity_periodic h bb p bl tr mu Ot Et st
        (kstart Ns k1 (bead_relabel s t Ns Nd b) + i)%nat (kstart Ns k2 (bead_relabel s t Ns Nd b') + j)%nat.
Proof.
  intros h bb p bl tr mu Ot Et st s t Hs Ht Ns Nd HA k1 b k2 b' i j V1 V2 Hi Hj.
  exact (genP_relabel h bb p bl tr mu Ot Et st s t Hs Ht k1 b k2 b' i j HA V1 V2 Hi Hj).
Qed.
Print Assumptions C53_relabelling.

(** Configurations meeting the hypothesis: a sphere of radius 1 and a dumbbell
    of radius 2 in a cubic box of side 100, with any number of images. *)
Example C53_example : forall h,
  apart (cubic_lattice h 100) (num_spheres exP + 2 * num_dumbbells exP) (bead_positions exP) (bead_sizes exP).
Proof. exact exP_apart. Qed.

(** C53, finding: the rotation of that sphere under a force on the bead is not
    the pair mobility with the radius of the sphere where it belongs. *)
Theorem C53_mixed_radii_refuted :
  forall mu st bb, 0 < mu ->
    let lat := cubic_lattice 0 100 in
    let g := pair_geometry (bead_positions exP 0) (bead_positions exP 1) (bead_sizes exP 0) (bead_sizes exP 1) in
    generate_Minfinity_periodic_loop lat bb (bead_positions exP) (bead_sizes exP) 1 1 (1 / (8 * PI * mu)) mu st
      (kstart 1 KO 0 + 2)%nat (kstart 1 KB 1 + 1)%nat <>
    periodic_pair lat KO KB (fst g) (snd g) (bead_sizes exP 0) (bead_sizes exP 1) (1 / (8 * PI * mu)) mu 2 1.
Proof. exact exP_radius. Qed.
Print Assumptions C53_mixed_radii_refuted.

(** C54: the pair sums are the differential operators of Spec_Ewald applied to
    one Green's tensor, except that the velocities due to a torque or a
    stresslet use its real-space part only. *)
Theorem C54_pair_sums :
  forall lat : lattice, exists D DD LJ DLJ DDLJ RD RDD RLJ RDLJ RDDLJ,
    derivatives_on (off_lattice lat) (green lat) D DD LJ DLJ DDLJ /\
    derivatives_on (off_lattice lat) (green_real lat) RD RDD RLJ RDLJ RDDLJ /\
    forall (r : vec) (a1 a2 c mu : R) (e : nat -> R) (i j k l : nat),
      (i < 3)%nat -> (j < 3)%nat -> (k < 3)%nat -> (l < 3)%nat ->
      tiny < norm r -> (forall X, In X (X_lmn lat) -> tiny < norm (vadd r X)) ->
      let s := norm r in
      let sl := fun X => norm (vadd r X) in
      M11P lat i j r s a1 a2 e c mu sl = op_a (green lat) LJ c a1 a2 r i j /\
      M22P lat i j r s a1 a2 e c mu sl = op_c DD c r i j /\
      M23P lat i j k r s a1 a2 c mu sl = op_h DD DDLJ c (a2 ^ 2 / 6) r i j k /\
      M33P lat i j k l r s a1 a2 e c mu sl = op_m DD DDLJ c a1 a2 r i j k l /\
      M12P lat i j r s a1 a2 c mu sl = op_b RD RDLJ c a1 r i j /\
      M13P lat i j k r s a1 a2 c mu sl = op_g RD RDLJ c a1 a2 r i j k.
Proof.
  intros lat. exists (gD lat), (gDD lat), (gLJ lat), (gDLJ lat), (gDDLJ lat), (rD lat), (rDD lat), (rLJ lat), (rDLJ lat), (rDDLJ lat).
  split; [exact (green_on lat)|split; [exact (real_on lat)|]].
  intros r a1 a2 c mu e i j k l Hi Hj Hk Hl Hs HX s sl. unfold s, sl.
  split; [apply M11P_green; assumption|]. split; [apply M22P_green; assumption|].
  split; [apply M23P_green; assumption|]. split; [apply M33P_green; assumption|].
  split; [apply M12P_green; assumption|apply M13P_green; assumption].
Qed.
Print Assumptions C54_pair_sums.

Lemma tiny_nonzero q : tiny < norm q -> nonzero q.
Proof.
  intros H. unfold nonzero. assert (Ht : 0 < tiny) by (unfold tiny; apply Rinv_0_lt_compat; simpl; lra).
  destruct (Rle_or_lt (dot3 q q) 0) as [H0|H0]; [|exact H0].
  rewrite <- len_norm in H. unfold len in H. rewrite sqrt_neg_0 in H by exact H0. lra.
Qed.

(** C54, finding: at a quarter of the side of any cubic box (with the default
    number of images) these two differ from the operators applied to the whole
    tensor. *)
Theorem C54_wave_part_omitted_refuted :
  forall L a1 a2 c mu : R,
    1 <= L -> 0 < a1 -> 0 < a2 -> 12 * a1 <= L -> 12 * a2 <= L -> 0 < c ->
    let lat := cubic_lattice 2 L in
    let r := v3 (L / 4) 0 0 in
    let sl := fun X => norm (vadd r X) in
    off_lattice lat r /\
    exists D DD LJ DLJ DDLJ,
      derivatives_on (off_lattice lat) (green lat) D DD LJ DLJ DDLJ /\
      M12P lat 1 2 r (norm r) a1 a2 c mu sl < op_b D DLJ c a1 r 1 2 /\
      M13P lat 0 0 0 r (norm r) a1 a2 c mu sl < op_g D DLJ c a1 a2 r 0 0 0.
Proof.
  intros L a1 a2 c mu HL H1 H2 HL1 HL2 Hc lat r sl. split.
  - intros X HX. pose proof (quarter_off L HL a1 H1 HL1 X HX) as H. fold r in H. apply tiny_nonzero. exact H.
  - exists (gD lat), (gDD lat), (gLJ lat), (gDLJ lat), (gDDLJ lat). split; [exact (green_on lat)|].
    split; [apply M12P_omits; assumption|apply M13P_omits; assumption].
Qed.
Print Assumptions C54_wave_part_omitted_refuted.

Example C54_example : 1 <= 100 /\ 0 < 2 /\ 12 * 2 <= 100 /\
  tiny < norm (v3 (100 / 4) 0 0) /\
  forall X, In X (X_lmn (cubic_lattice 2 100)) -> tiny < norm (vadd (v3 (100 / 4) 0 0) X).
Proof.
  split; [lra|]. split; [lra|]. split; [lra|]. split.
  - replace (norm (v3 (100 / 4) 0 0)) with 25.
    + unfold tiny. rewrite <- (Rinv_inv 25). apply Rinv_lt_contravar; simpl; lra.
    + unfold norm, v3. simpl. replace (_ + _ + _) with (25 * 25) by field. symmetry. apply sqrt_square. lra.
  - apply quarter_off with (a1 := 1); lra.
Qed.

(** C55: the branch for a particle and its own images is the isolated
    particle's mobility plus the limit, at vanishing separation, of the
    operators applied to the difference of the periodic and the unbounded
    tensor.  Finding: the angular velocity due to a torque exceeds this by
    40 lambda^3 / (3 sqrt pi) (last but one line). *)
Theorem C55_self_terms :
  forall h bl tr Ot Et, let lat := build_lattice h bl tr Ot Et in
    let stokeslet i j q := J (q i) (q j) i j (norm q) in
    volume (shear_basis_vectors (diag3 (vsub tr bl)) (vsub tr bl) Ot Et) <> 0 ->
    (forall X, In X (Xdash_lmn lat) -> tiny < norm X) ->
    exists D DD LJ DLJ DDLJ uD uDD uL uDL uDDL,
      derivatives_on (off_lattice lat) (green lat) D DD LJ DLJ DDLJ /\
      derivatives nonzero stokeslet uD uDD uL uDL uDDL /\
      forall (r : vec) (s a c mu : R) (e : nat -> R) (sl : vec -> R) (i j k l : nat),
        (i < 3)%nat -> (j < 3)%nat -> (k < 3)%nat -> (l < 3)%nat -> s <= tiny -> abs1 r <= tiny ->
        lim0 (fun q => op_a (green lat) LJ c a a q i j - op_a stokeslet uL c a a q i j)
             (M11P lat i j r s a a e c mu sl - delta i j / (6 * PI * mu * a)) /\
        lim0 (fun q => op_b D DLJ c a q i j - op_b uD uDL c a q i j)
             (M12P lat i j r s a a c mu sl) /\
        lim0 (fun q => op_g D DLJ c a a q i j k - op_g uD uDL c a a q i j k)
             (M13P lat i j k r s a a c mu sl) /\
        lim0 (fun q => op_h DD DDLJ c (a ^ 2 / 6) q i j k - op_h uDD uDDL c (a ^ 2 / 6) q i j k)
             (M23P lat i j k r s a a c mu sl) /\
        lim0 (fun q => op_m DD DDLJ c a a q i j k l - op_m uDD uDDL c a a q i j k l)
             (M33P lat i j k l r s a a e c mu sl
              - 1 / 2 * (delta i k * delta j l + delta i l * delta j k - 2 / 3 * (delta i j * delta k l))
                / (20 / 3 * PI * mu * a ^ 3)) /\
        lim0 (fun q => op_c DD c q i j - op_c uDD c q i j)
             (M22P lat i j r s a a e c mu sl - delta i j / (8 * PI * mu * a ^ 3)
              - c * (40 * lat_lamb lat ^ 3 / (3 * sqrt PI)) * delta i j).
Proof.
  intros h bl tr Ot Et lat stokeslet HV HX.
  pose proof (lattice_lamb_pos h bl tr Ot Et) as Hl0. fold lat in Hl0.
  pose proof (lattice_origin h bl tr Ot Et HV) as HO. fold lat in HO.
  pose proof (Xdash_reflected h bl tr Ot Et) as HR. fold lat in HR.
  exists (gD lat), (gDD lat), (gLJ lat), (gDLJ lat), (gDDLJ lat), uDJ, uDDJ, uLJ, uDLJ, uDDLJ.
  split; [exact (green_on lat)|split; [exact unbounded_derivatives|]].
  intros r s a c mu e sl i j k l Hi Hj Hk Hl Hs Hr.
  split; [|split; [|split; [|split; [|split]]]].
  - rewrite <- (self_a lat HX r s a c mu e sl Hs i j). apply op_a_lim; try assumption.
    + apply sJ_lim; assumption.
    + apply sLJ_lim; assumption.
  - rewrite <- (self_b lat HR r s a c mu sl Hs i j). apply op_b_lim; try assumption.
    + apply sD_lim; assumption.
    + apply sDLJ_lim; assumption.
  - rewrite <- (self_g lat HR r s a c mu sl Hs i j k). apply op_g_lim; try assumption.
    + apply sD_lim; assumption.
    + apply sDLJ_lim; assumption.
  - rewrite <- (self_h lat HX r s a c mu sl Hs i j k Hi Hj Hk). apply op_h_lim; try assumption.
    + apply sDD_lim; assumption.
    + apply sDDLJ_lim; assumption.
  - change (delta i k * delta j l + delta i l * delta j k - 2 / 3 * (delta i j * delta k l)) with (kron3traceless i j k l).
    rewrite <- (self_m lat HX r s a c mu e sl Hs i j k l). apply op_m_lim; try assumption.
    + apply sDD_lim; assumption.
    + apply sDDLJ_lim; assumption.
  - change (sqrt PI) with spi. rewrite <- (self_c lat HX r s a c mu e sl Hs Hr i j Hi Hj). apply op_c_lim; try assumption.
    apply sDD_lim; assumption.
Qed.
Print Assumptions C55_self_terms.

(** C55, finding restated: it is not that limit. *)
Theorem C55_rotation_self_term_refuted :
  forall h bl tr Ot Et, let lat := build_lattice h bl tr Ot Et in
    volume (shear_basis_vectors (diag3 (vsub tr bl)) (vsub tr bl) Ot Et) <> 0 ->
    (forall X, In X (Xdash_lmn lat) -> tiny < norm X) ->
    exists D DD LJ DLJ DDLJ uD uDD uL uDL uDDL,
      derivatives_on (off_lattice lat) (green lat) D DD LJ DLJ DDLJ /\
      derivatives nonzero (fun i j q => J (q i) (q j) i j (norm q)) uD uDD uL uDL uDDL /\
      forall (r : vec) (s a c mu : R) (e : nat -> R) (sl : vec -> R) (i : nat),
        (i < 3)%nat -> s <= tiny -> abs1 r <= tiny -> 0 < c ->
        ~ lim0 (fun q => op_c DD c q i i - op_c uDD c q i i)
               (M22P lat i i r s a a e c mu sl - 1 / (8 * PI * mu * a ^ 3)).
Proof.
  intros h bl tr Ot Et lat HV HX.
  destruct (C55_self_terms h bl tr Ot Et HV HX) as (D & DD & LJ & DLJ & DDLJ & uD & uDD & uL & uDL & uDDL & H1 & H2 & H).
  exists D, DD, LJ, DLJ, DDLJ, uD, uDD, uL, uDL, uDDL. split; [exact H1|split; [exact H2|]].
  intros r s a c mu e sl i Hi Hs Hr Hc HL.
  destruct (H r s a c mu e sl i i i i Hi Hi Hi Hi Hs Hr) as (_ & _ & _ & _ & _ & HC). fold lat in HC.
  assert (Hd : delta i i = 1) by (unfold delta; rewrite Nat.eqb_refl; reflexivity). rewrite Hd in HC.
  pose proof (lattice_lamb_pos h bl tr Ot Et) as Hl0. fold lat in Hl0.
  assert (Hsp : 0 < sqrt PI) by (apply sqrt_lt_R0; exact PI_RGT_0).
  set (w := c * (40 * lat_lamb lat ^ 3 / (3 * sqrt PI))) in *.
  assert (Hw : 0 < w).
  { unfold w. apply Rmult_lt_0_compat; [exact Hc|]. apply Rdiv_lt_0_compat; [|lra].
    apply Rmult_lt_0_compat; [lra|apply pow_lt; exact Hl0]. }
  set (v := M22P lat i i r s a a e c mu sl - 1 / (8 * PI * mu * a ^ 3)) in *.
  destruct (HL (w / 2) ltac:(lra)) as (d & Hd0 & HD). destruct (HC (w / 2) ltac:(lra)) as (d' & Hd1 & HD').
  set (m := Rmin d d' / 2). assert (Hm : 0 < m /\ m < d /\ m < d').
  { unfold m. pose proof (Rmin_l d d'). pose proof (Rmin_r d d'). pose proof (Rmin_glb_lt d d' 0 Hd0 Hd1). lra. }
  assert (Hq : nonzero (v3 m 0 0)).
  { unfold nonzero, dot3, v3. assert (0 < m * m) by (apply Rmult_lt_0_compat; lra). lra. }
  assert (Hn : len (v3 m 0 0) = m).
  { unfold len, dot3, v3. replace (_ + _ + _) with (m * m) by ring. apply sqrt_square. lra. }
  specialize (HD (v3 m 0 0) Hq ltac:(rewrite Hn; lra)). specialize (HD' (v3 m 0 0) Hq ltac:(rewrite Hn; lra)).
  apply Rabs_def2 in HD. apply Rabs_def2 in HD'. lra.
Qed.
Print Assumptions C55_rotation_self_term_refuted.

(** Lattices meeting the hypotheses. *)
Lemma cubic_volume L :
  volume (shear_basis_vectors (diag3 (vsub (v3 L L L) (v3 0 0 0))) (vsub (v3 L L L) (v3 0 0 0)) (v3 0 0 0) mzero) = L * L * L.
Proof.
  assert (E : forall k l, shear_basis_vectors (diag3 (vsub (v3 L L L) (v3 0 0 0))) (vsub (v3 L L L) (v3 0 0 0)) (v3 0 0 0) mzero k l
     = diag3 (vsub (v3 L L L) (v3 0 0 0)) k l).
  { intros k l. rewrite <- unsheared_basis. unfold shear_basis_vectors, mzero, cross, v3.
    destruct l as [|[|[|]]]; reflexivity. }
  unfold volume, dot3, cross. unfold v3 at 1 3 5. rewrite !E. unfold diag3, vsub. simpl. ring.
Qed.
Example C55_example : forall h,
  volume (shear_basis_vectors (diag3 (vsub (v3 100 100 100) (v3 0 0 0))) (vsub (v3 100 100 100) (v3 0 0 0)) (v3 0 0 0) mzero) <> 0 /\
  (forall X, In X (Xdash_lmn (cubic_lattice h 100)) -> tiny < norm X).
Proof.
  intros h. split; [rewrite cubic_volume; lra|]. intros X HX.
  apply (proj1 (lattice_Xdash h _ _ _ _ X)) in HX. destruct HX as [HX HN].
  destruct (cubic_X_in h 100 X HX) as (l & m & n & E0 & E1 & E2).
  unfold norm in *. rewrite E0, E1, E2 in *.
  replace (_ + _ + _) with (100 * 100 * IZR (l * l + m * m + n * n)) in * by (rewrite !plus_IZR, !mult_IZR; ring).
  assert (Hz : (1 <= l * l + m * m + n * n)%Z).
  { destruct (Z_le_gt_dec 1 (l * l + m * m + n * n)) as [Hz|Hz]; [exact Hz|].
    assert (l * l + m * m + n * n = 0)%Z as E by nia. rewrite E, Rmult_0_r, sqrt_0 in HN. lra. }
  apply IZR_le in Hz. apply Rlt_le_trans with 1.
  - unfold tiny. rewrite <- Rinv_1. apply Rinv_lt_contravar; simpl; lra.
  - rewrite <- sqrt_1 at 1. apply sqrt_le_1_alt. simpl in Hz. lra.
Qed.

(** C56: the lattice vectors. *)
Theorem C56_images :
  forall h bl tr Ot Et X,
    let lat := build_lattice h bl tr Ot Et in
    let box := vsub tr bl in
    let B := shear_basis_vectors (diag3 box) box Ot Et in
    (In X (X_lmn lat) <->
     exists l m n : Z, (Z.abs l <= Z.of_nat h)%Z /\ (Z.abs m <= Z.of_nat h)%Z /\ (Z.abs n <= Z.of_nat h)%Z /\
       X = (fun j => IZR l * B 0%nat j + IZR m * B 1%nat j + IZR n * B 2%nat j) /\
       norm X <= 14142 / 10000 * INR h * lat_L lat) /\
    (In X (Xdash_lmn lat) <-> In X (X_lmn lat) /\ 0 < norm X) /\
    (In X (X_lmn lat) <-> In (vopp X) (X_lmn lat)) /\
    (In X (K_lmn lat) <-> In (vopp X) (K_lmn lat)) /\
    (volume B <> 0 -> NoDup (X_lmn lat) /\ Permutation (X_lmn lat) ((fun _ => 0) :: Xdash_lmn lat)).
Proof.
  intros h bl tr Ot Et X lat box B.
  assert (HR : forall l, reflected l -> forall X, In X l <-> In (vopp X) l).
  { assert (Ho : forall l, reflected l -> forall X, In X l -> In (vopp X) l).
    { intros l H Y HY. apply (Permutation_in _ H). apply in_map. exact HY. }
    intros l H Y. split; [apply Ho; exact H|]. intros HY. apply (Ho l H) in HY. rewrite vopp_invol in HY. exact HY. }
  split; [exact (lattice_X h bl tr Ot Et X)|]. split; [exact (lattice_Xdash h bl tr Ot Et X)|].
  split; [apply HR, X_reflected|]. split; [apply HR, K_reflected|].
  intros HV. split; [apply lattice_X_nodup; exact HV|apply lattice_origin; exact HV].
Qed.
Print Assumptions C56_images.

(** C56: in a box of unchanged volume (any shear, C33) every wave vector is in
    phase with every lattice translation, so that the wave part of the
    truncated sum is exactly periodic. *)
Theorem C56_wave_part_periodic :
  forall h bl tr Ot Et,
    let lat := build_lattice h bl tr Ot Et in
    let box := vsub tr bl in
    let B := shear_basis_vectors (diag3 box) box Ot Et in
    volume B = box 0%nat * box 1%nat * box 2%nat -> 0 < volume B ->
    forall v, in_lattice B v ->
      (forall K, In K (K_lmn lat) -> exists z : Z, dot3 K v = 2 * PI * IZR z) /\
      forall i j q, green_wave lat i j (vadd q v) = green_wave lat i j q.
Proof.
  intros h bl tr Ot Et lat box B HV HP v (m & Hm).
  assert (E : forall w, dot3 w v = dot3 w (combination B (m 0%nat) (m 1%nat) (m 2%nat))).
  { intros w. unfold dot3, combination. rewrite !Hm by lia. cbn [rsum]. ring. }
  split.
  - intros K HK. rewrite E. exact (wave_in_phase h bl tr Ot Et HV HP K _ _ _ HK).
  - intros i j q. etransitivity; [|exact (green_wave_periodic h bl tr Ot Et HV HP i j q (m 0%nat) (m 1%nat) (m 2%nat))].
    unfold green_wave. apply vsum_ext. intros K HK. f_equal. f_equal.
    fold box B. specialize (E K). unfold dot3, vadd in *. lra.
Qed.
Print Assumptions C56_wave_part_periodic.

Example C56_example :
  let box := vsub (v3 100 100 100) (v3 0 0 0) in
  let B := shear_basis_vectors (diag3 box) box (v3 0 0 0) mzero in
  volume B = box 0%nat * box 1%nat * box 2%nat /\ 0 < volume B.
Proof. cbv zeta. rewrite cubic_volume. unfold vsub, v3. split; lra. Qed.
