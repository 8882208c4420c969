(** Properties C19 and C20: the search for close pairs. *)
From Coq Require Import Reals Arith ZArith Bool List Lia Lra.
From Verif Require Import Base Model_Mob Model_Close Model_Pack Model_Minf Model_R2B Spec_R2B Spec_Close
  Spec_Layout Spec_Minf Proof_R2B4 Proof_Close Proof_Periodic Proof_Periodic2 Proof_Close2.
Import ListNotations.
Local Open Scope R_scope.

(** C19: exactly the pairs i <= j with scaled distance below the cutoff, each
    with the scaled displacement, the scaled distance and the size ratio. *)
Theorem C19_exactly_the_close_pairs :
  forall x a n cutoff_factor t,
    In t (close_particles_free x a n cutoff_factor) <->
    (cp1 t <= cp2 t < n)%nat /\ scaled_distance x a (cp1 t) (cp2 t) < 2 * cutoff_factor /\
    t = mkCpair (cp1 t) (cp2 t) (vscal (2 / (a (cp1 t) + a (cp2 t))) (vsub (x (cp2 t)) (x (cp1 t))))
          (scaled_distance x a (cp1 t) (cp2 t)) (a (cp2 t) / a (cp1 t)).
Proof. exact free_in. Qed.
Print Assumptions C19_exactly_the_close_pairs.

Theorem C19_each_pair_once :
  forall x a n cutoff_factor, NoDup (map (fun t => (cp1 t, cp2 t)) (close_particles_free x a n cutoff_factor)).
Proof. exact free_nodup. Qed.
Print Assumptions C19_each_pair_once.

Theorem C19_distance_is_length :
  forall x a n cutoff_factor t, (forall b, (b < n)%nat -> 0 < a b) ->
    In t (close_particles_free x a n cutoff_factor) -> norm (cp_disp t) = cp_dist t.
Proof. exact free_in_length. Qed.
Print Assumptions C19_distance_is_length.

(** Periodic box: each pair once, and exactly the pairs whose reported
    displacement passes two tests. *)
Theorem C19_periodic_pairs :
  forall inv box Ot Et x a n cutoff_factor t,
    let d := periodic_disp inv x box Ot Et (cp1 t) (cp2 t) in
    In t (close_particles_periodic inv x a n cutoff_factor box Ot Et) <->
    (cp1 t <= cp2 t < n)%nat /\ norm d <= 2 * cutoff_factor /\
    2 * norm d / (a (cp1 t) + a (cp2 t)) <= 2 * cutoff_factor /\
    t = mkCpair (cp1 t) (cp2 t) (vscal (2 / (a (cp1 t) + a (cp2 t))) d)
          (2 * norm d / (a (cp1 t) + a (cp2 t))) (a (cp2 t) / a (cp1 t)).
Proof. exact periodic_in. Qed.
Print Assumptions C19_periodic_pairs.

Theorem C19_periodic_each_pair_once :
  forall inv box Ot Et x a n cutoff_factor,
    NoDup (map (fun t => (cp1 t, cp2 t)) (close_particles_periodic inv x a n cutoff_factor box Ot Et)).
Proof. exact periodic_nodup. Qed.
Print Assumptions C19_periodic_each_pair_once.

(** In simple shear u_x = g y, with the cutoff below a quarter of the box, a
    pair of mean radius at most 1 is found exactly if some image is within
    the cutoff. *)
Theorem C19_periodic_simple_shear :
  forall inv box g, (forall k, (k < 3)%nat -> 0 < box k) ->
    let B := shear_basis_vectors (diag3 box) box (shear_O g) (shear_E g) in
    is_inv 3 B (inv B) -> is_inv 3 (diag3 box) (inv (diag3 box)) ->
    forall x a n cutoff_factor i j, (i <= j < n)%nat -> 0 < a i + a j <= 2 -> 0 <= cutoff_factor ->
    (forall k, (k < 3)%nat -> 2 * cutoff_factor < box k / 4) ->
    ((exists t, In t (close_particles_periodic inv x a n cutoff_factor box (shear_O g) (shear_E g)) /\ cp1 t = i /\ cp2 t = j) <->
     (exists m, 2 * norm (vadd (vsub (x j) (x i)) (lattice_shift B m)) / (a i + a j) <= 2 * cutoff_factor)).
Proof. exact simple_found. Qed.
Print Assumptions C19_periodic_simple_shear.

(** Not true of larger particles: two spheres of radius 2, 5 apart in a box of
    side 100, have scaled distance 2.5 below the cutoff 4 and are not found. *)
Theorem C19_periodic_large_particles_refuted :
  exists inv x a box,
    is_inv 3 (diag3 box) (inv (diag3 box)) /\
    (forall k, 0 < box k) /\ (forall b : nat, 0 < a b) /\
    2 * norm (periodic_disp inv x box (fun _ => 0) (fun _ _ => 0) 0 1) / (a 0%nat + a 1%nat) <= 2 * 2 /\
    ~ exists t, In t (close_particles_periodic inv x a 2 2 box (fun _ => 0) (fun _ _ => 0)) /\ cp1 t = 0%nat /\ cp2 t = 1%nat.
Proof. exact large_particles_missed. Qed.
Print Assumptions C19_periodic_large_particles_refuted.

Example C19_example :
  let x := fun i => v3 (3 * INR i) 0 0 in
  let a := fun i => match i with 0%nat => 1 | _ => 2 end in
  scaled_distance x a 0 1 < 2 * 2 /\ ~ scaled_distance x a 0 2 < 2 * (19 / 10).
Proof.
  unfold scaled_distance, vsub, norm, v3. split.
  - replace (_ ^ 2 + _ + _) with (3 ^ 2) by (simpl; ring). rewrite sqrt_pow2; lra.
  - replace (_ ^ 2 + _ + _) with (6 ^ 2) by (simpl; ring). rewrite sqrt_pow2; lra.
Qed.

(** C20 *)
Theorem C20_lattice_image :
  forall inv box Ot Et,
    let B := shear_basis_vectors (diag3 box) box Ot Et in
    is_inv 3 B (inv B) -> is_inv 3 (diag3 box) (inv (diag3 box)) ->
    forall x i j, exists m : nat -> Z, forall l, (l < 3)%nat ->
      periodic_disp inv x box Ot Et i j l = x j l - x i l + lattice_shift B m l.
Proof. exact disp_image. Qed.
Print Assumptions C20_lattice_image.

Theorem C20_centred_cell :
  forall inv box Ot Et, is_inv 3 (diag3 box) (inv (diag3 box)) ->
    forall x i j, exists f : vec, (forall k, (k < 3)%nat -> - (1 / 2) <= f k < 1 / 2) /\
      forall l, periodic_disp inv x box Ot Et i j l =
                rsum 3 (fun k => f k * shear_basis_vectors (diag3 box) box Ot Et k l).
Proof. exact disp_centred. Qed.
Print Assumptions C20_centred_cell.

(** and it is the only image of the pair in the centred cell *)
Theorem C20_unique_image :
  forall inv box Ot Et,
    let B := shear_basis_vectors (diag3 box) box Ot Et in
    is_inv 3 B (inv B) -> is_inv 3 (diag3 box) (inv (diag3 box)) ->
    forall x i j (m : nat -> Z) (f : vec),
      (forall k, (k < 3)%nat -> - (1 / 2) <= f k < 1 / 2) ->
      (forall l, (l < 3)%nat -> x j l - x i l + lattice_shift B m l = rsum 3 (fun k => f k * B k l)) ->
      forall l, periodic_disp inv x box Ot Et i j l = rsum 3 (fun k => f k * B k l).
Proof. exact disp_unique. Qed.
Print Assumptions C20_unique_image.

Theorem C20_lattice_shift_invariant :
  forall inv box Ot Et,
    let B := shear_basis_vectors (diag3 box) box Ot Et in
    is_inv 3 B (inv B) -> is_inv 3 (diag3 box) (inv (diag3 box)) ->
    forall x a n cutoff_factor (m : nat -> nat -> Z),
      close_particles_periodic inv (fun b => vadd (x b) (lattice_shift B (m b))) a n cutoff_factor box Ot Et =
      close_particles_periodic inv x a n cutoff_factor box Ot Et.
Proof. exact periodic_shift. Qed.
Print Assumptions C20_lattice_shift_invariant.

(** Without shear it is a nearest image. *)
Theorem C20_nearest_image_unsheared :
  forall inv x box i j (m : nat -> Z),
    let Z0 := fun _ => 0 in let ZZ := fun _ _ : nat => 0 in
    is_inv 3 (shear_basis_vectors (diag3 box) box Z0 ZZ) (inv (shear_basis_vectors (diag3 box) box Z0 ZZ)) ->
    is_inv 3 (diag3 box) (inv (diag3 box)) ->
    norm (periodic_disp inv x box Z0 ZZ i j) <= norm (vadd (vsub (x j) (x i)) (lattice_shift (diag3 box) m)).
Proof. exact disp_nearest. Qed.
Print Assumptions C20_nearest_image_unsheared.

(** In a sheared box it need not be: two unit spheres 5.66 apart in a box of
    side 10 sheared by one half are not found with cutoff 6. *)
Theorem C20_nearest_image_sheared_refuted :
  exists inv x box g,
    let B := shear_basis_vectors (diag3 box) box (shear_O g) (shear_E g) in
    is_inv 3 B (inv B) /\ is_inv 3 (diag3 box) (inv (diag3 box)) /\ (forall k, 0 < box k) /\
    2 * norm (vsub (x 1%nat) (x 0%nat)) / (1 + 1) < 2 * 3 /\
    ~ exists t, In t (close_particles_periodic inv x (fun _ => 1) 2 3 box (shear_O g) (shear_E g)) /\ cp1 t = 0%nat /\ cp2 t = 1%nat.
Proof. exact sheared_pair_missed. Qed.
Print Assumptions C20_nearest_image_sheared_refuted.

(** The hypotheses are met by a cubic box sheared by one half. *)
Example C20_example :
  let B := shear_basis_vectors (diag3 box10) box10 (shear_O (1/2)) (shear_E (1/2)) in
  is_inv 3 (diag3 box10) (inv_slant (diag3 box10)) /\ is_inv 3 B (inv_slant B) /\
  B 1%nat 0%nat = 5 /\ periodic_disp inv_slant slant_x box10 (shear_O (1/2)) (shear_E (1/2)) 0 1 0%nat = 6.
Proof.
  cbv zeta. destruct inv_slant_ok as [H1 H2]. repeat split; try (apply H1; assumption); try (apply H2; assumption).
  - rewrite simple_basis by lia. rewrite slant_s. unfold diag3. cbn [Nat.eqb andb]. ring.
  - rewrite slant_disp by lia. reflexivity.
Qed.

(** C16: with bead-bead interactions switched off the diagonal blocks of the
    beads still contain the lubrication with other beads. *)
Theorem C16_bead_interactions_off_refuted :
  exists sc x a M,
    generate_R2Bexact_loop sc [1] false a 0 1 (close_particles_free x a 2 2) = Some M /\ M 0%nat 0%nat <> 0 /\ M 0%nat 3%nat = 0.
Proof. exact bead_bead_off_diagonal. Qed.
Print Assumptions C16_bead_interactions_off_refuted.
