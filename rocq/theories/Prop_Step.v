(** Properties C28 (orientation update), C29 (wrapping) and C31 (background flow). *)
From Coq Require Import Reals List Arith Bool Lia Lra ZArith.
From Verif Require Import Base Model_Mob Model_Close Spec_Close Model_Step Spec_Step Proof_Periodic Proof_Step Proof_Step2 Proof_Step3.
Local Open Scope R_scope.

(** C28.  The new orientation vector relative to the new centre is the old one
    rotated about the angular velocity by the angle |O| dt. *)
Theorem C28_rotation :
  forall inv pos rot new_pos Oa dt i j l, inverts inv -> (l < 3)%nat ->
    (exists l, (l < 3)%nat /\ rot i j l <> pos i l) ->
    vsub (euler_timestep_rotation inv pos rot new_pos Oa dt i j) (new_pos i) l =
    rodrigues (Oa i) (norm (Oa i) * dt) (vsub (rot i j) (pos i)) l.
Proof. intros inv pos rot new_pos Oa dt i j l Hi Hl Ha. exact (new_arm inv pos new_pos rot Oa dt Hi i j l Ha Hl). Qed.
Print Assumptions C28_rotation.

(** AB2 does the same with the extrapolated angular velocity. *)
Theorem C28_rotation_ab2 :
  forall inv pos rot new_pos Oa Oprev dt i j l, inverts inv -> (l < 3)%nat ->
    (exists l, (l < 3)%nat /\ rot i j l <> pos i l) ->
    let W := fun l => Oa i l + (Oa i l - Oprev i l) / 2 in
    vsub (ab2_timestep_rotation inv pos rot new_pos Oa Oprev dt i j) (new_pos i) l =
    rodrigues W (norm W * dt) (vsub (rot i j) (pos i)) l.
Proof. exact ab2_arm. Qed.
Print Assumptions C28_rotation_ab2.

(** Lengths and the angle between the two orientation vectors are kept. *)
Theorem C28_rigid :
  forall inv pos rot new_pos Oa dt i, inverts inv ->
    (forall j, (j < 2)%nat -> exists l, (l < 3)%nat /\ rot i j l <> pos i l) ->
    let new := euler_timestep_rotation inv pos rot new_pos Oa dt in
    (forall j, (j < 2)%nat -> norm (vsub (new i j) (new_pos i)) = norm (vsub (rot i j) (pos i))) /\
    dot3 (vsub (new i 0%nat) (new_pos i)) (vsub (new i 1%nat) (new_pos i)) =
    dot3 (vsub (rot i 0%nat) (pos i)) (vsub (rot i 1%nat) (pos i)).
Proof. exact rigid_step. Qed.
Print Assumptions C28_rigid.

(** The component along the axis is kept. *)
Theorem C28_axis :
  forall inv pos rot new_pos Oa dt i j, inverts inv ->
    (exists l, (l < 3)%nat /\ rot i j l <> pos i l) ->
    dot3 (Oa i) (vsub (euler_timestep_rotation inv pos rot new_pos Oa dt i j) (new_pos i)) =
    dot3 (Oa i) (vsub (rot i j) (pos i)).
Proof. intros inv pos rot new_pos Oa dt i j Hi Ha. exact (new_axis inv pos new_pos rot Oa dt Hi i j Ha). Qed.
Print Assumptions C28_axis.

(** No angular velocity: the vector is translated. *)
Theorem C28_no_spin :
  forall inv pos rot new_pos Oa dt i j l, inverts inv -> (l < 3)%nat ->
    (exists l, (l < 3)%nat /\ rot i j l <> pos i l) -> (forall l, (l < 3)%nat -> Oa i l = 0) ->
    euler_timestep_rotation inv pos rot new_pos Oa dt i j l = rot i j l + (new_pos i l - pos i l).
Proof. intros inv pos rot new_pos Oa dt i j l Hi Hl Ha H0. exact (new_still inv pos new_pos rot Oa dt Hi i j l Ha Hl H0). Qed.
Print Assumptions C28_no_spin.

(** The sense of rotation: to first order in dt the vector moves with O x v. *)
Theorem C28_derivative :
  forall inv pos rot Oa i j l, inverts inv ->
    (exists l, (l < 3)%nat /\ rot i j l <> pos i l) -> (l < 3)%nat ->
    derivable_pt_lim (fun dt => euler_timestep_rotation inv pos rot pos Oa dt i j l) 0
      (cross (Oa i) (vsub (rot i j) (pos i)) l).
Proof. exact new_derivative. Qed.
Print Assumptions C28_derivative.

(** Two steps with the same angular velocity make one step of the total length;
    in particular a step and its reverse cancel. *)
Theorem C28_compose :
  forall inv pos p1 p2 rot Oa dt dt' i j l, inverts inv ->
    (exists l, (l < 3)%nat /\ rot i j l <> pos i l) -> (l < 3)%nat ->
    euler_timestep_rotation inv p1 (euler_timestep_rotation inv pos rot p1 Oa dt) p2 Oa dt' i j l =
    euler_timestep_rotation inv pos rot p2 Oa (dt + dt') i j l.
Proof. exact new_compose. Qed.
Print Assumptions C28_compose.

(** Instance: a quarter turn about z takes x to y. *)
Example C28_example :
  inverts inv3 /\
  let new := euler_timestep_rotation inv3 (fun _ => v3 1 2 3) (fun _ _ => v3 3 2 3) (fun _ => v3 5 5 5)
                                     (fun _ => v3 0 0 1) (PI / 2) in
  new 0%nat 0%nat 0%nat = 5 /\ new 0%nat 0%nat 1%nat = 7 /\ new 0%nat 0%nat 2%nat = 5.
Proof.
  split; [exact inv3_inverts|]. intros new.
  assert (H : forall l, (l < 3)%nat -> new 0%nat 0%nat l - v3 5 5 5 l =
                rodrigues (v3 0 0 1) (norm (v3 0 0 1) * (PI / 2)) (vsub (v3 3 2 3) (v3 1 2 3)) l).
  { intros l Hl. apply (C28_rotation inv3 (fun _ => v3 1 2 3) (fun _ _ => v3 3 2 3) (fun _ => v3 5 5 5) (fun _ => v3 0 0 1) (PI / 2) 0 0 l);
    [exact inv3_inverts|exact Hl|]. exists 0%nat. split; [lia|]. simpl. lra. }
  assert (N : norm (v3 0 0 1) = 1).
  { unfold norm. simpl. replace (0 * (0 * 1) + 0 * (0 * 1) + 1 * (1 * 1)) with 1 by ring. apply sqrt_1. }
  pose proof (H 0%nat ltac:(lia)) as H0. pose proof (H 1%nat ltac:(lia)) as H1. pose proof (H 2%nat ltac:(lia)) as H2.
  unfold rodrigues in *. rewrite N, Rmult_1_l, cos_PI2, sin_PI2, Rinv_1 in *.
  unfold vscal, vsub, cross, dot3 in *. simpl in H0, H1, H2. repeat split; lra.
Qed.

(** C29.  The sheared lattice has an inverse: fractional coordinates of the
    result are in [-1/2, 1/2), *)
Theorem C29_in_cell :
  forall inv bl tr Ot Et x,
    let B := shear_basis_vectors (diag3 (vsub tr bl)) (vsub tr bl) Ot Et in
    is_inv 3 B (inv B) ->
    exists f : vec, (forall k, (k < 3)%nat -> - (1 / 2) <= f k < 1 / 2) /\
      forall l, wrap_around inv x bl tr Ot Et l = rsum 3 (fun k => f k * B k l).
Proof. intros inv bl tr Ot Et x B HB. exact (wrap_in_cell inv bl tr Ot Et x). Qed.
Print Assumptions C29_in_cell.

(** and the particle is moved by an integer combination of the lattice vectors. *)
Theorem C29_lattice_image :
  forall inv bl tr Ot Et x,
    let B := shear_basis_vectors (diag3 (vsub tr bl)) (vsub tr bl) Ot Et in
    is_inv 3 B (inv B) ->
    exists m : nat -> Z, forall l, (l < 3)%nat ->
      wrap_around inv x bl tr Ot Et l = x l + lattice_shift B m l.
Proof. intros inv bl tr Ot Et x B HB. exact (wrap_image inv bl tr Ot Et HB x). Qed.
Print Assumptions C29_lattice_image.

(** There is only one such image. *)
Theorem C29_unique :
  forall inv bl tr Ot Et x m f,
    let B := shear_basis_vectors (diag3 (vsub tr bl)) (vsub tr bl) Ot Et in
    is_inv 3 B (inv B) ->
    (forall k, (k < 3)%nat -> - (1 / 2) <= f k < 1 / 2) ->
    (forall l, (l < 3)%nat -> x l + lattice_shift B m l = rsum 3 (fun k => f k * B k l)) ->
    forall l, wrap_around inv x bl tr Ot Et l = rsum 3 (fun k => f k * B k l).
Proof. intros inv bl tr Ot Et x m f B HB. exact (wrap_unique inv bl tr Ot Et HB x m f). Qed.
Print Assumptions C29_unique.

Theorem C29_idempotent :
  forall inv bl tr Ot Et x l,
    let B := shear_basis_vectors (diag3 (vsub tr bl)) (vsub tr bl) Ot Et in
    is_inv 3 B (inv B) ->
    wrap_around inv (wrap_around inv x bl tr Ot Et) bl tr Ot Et l = wrap_around inv x bl tr Ot Et l.
Proof. intros inv bl tr Ot Et x l B HB. exact (wrap_idempotent inv bl tr Ot Et HB x l). Qed.
Print Assumptions C29_idempotent.

Theorem C29_lattice_invariant :
  forall inv bl tr Ot Et x m l,
    let B := shear_basis_vectors (diag3 (vsub tr bl)) (vsub tr bl) Ot Et in
    is_inv 3 B (inv B) ->
    wrap_around inv (vadd x (lattice_shift B m)) bl tr Ot Et l = wrap_around inv x bl tr Ot Et l.
Proof. intros inv bl tr Ot Et x m l B HB. exact (wrap_shift inv bl tr Ot Et HB x m l). Qed.
Print Assumptions C29_lattice_invariant.

(** Instance: a box of sides 2, 4, 6 with no flow; (5/2, 0, 0) goes to (1/2, 0, 0). *)
Example C29_example :
  let bl := v3 (-1) (-2) (-3) in let tr := v3 1 2 3 in
  let Ot : vec := v3 0 0 0 in let Et : mat := fun _ _ => 0 in
  let B := shear_basis_vectors (diag3 (vsub tr bl)) (vsub tr bl) Ot Et in
  is_inv 3 B (inv3 B) /\ wrap_around inv3 (v3 (5 / 2) 0 0) bl tr Ot Et 0%nat = 1 / 2.
Proof.
  intros bl tr Ot Et B.
  assert (HB : forall i j, (i < 3)%nat -> (j < 3)%nat -> B i j = if Nat.eqb i j then 2 * (INR i + 1) else 0).
  { intros i j Hi Hj. subst B. unfold shear_basis_vectors.
    replace (_ + rsum 3 _) with 0 by (idx3 Hj; idx3 Hi; unfold cross, diag3, Ot, Et, v3, rsum; simpl; ring).
    rewrite rmod_0. idx3 Hi; idx3 Hj; unfold diag3, vsub, bl, tr; simpl; ring. }
  assert (HI : is_inv 3 B (inv3 B)).
  { apply inv3_ok. unfold det3. rewrite !HB by lia. simpl. lra. }
  split; [exact HI|].
  rewrite (wrap_unique inv3 bl tr Ot Et HI _ (fun k => match k with O => (-1)%Z | _ => 0%Z end) (v3 (1 / 4) 0 0)).
  - fold B. unfold rsum. rewrite !HB by lia. simpl. lra.
  - intros k Hk. idx3 Hk; simpl; lra.
  - intros l Hl. fold B. unfold lattice_shift, rsum. rewrite !HB by lia. idx3 Hl; simpl; lra.
Qed.

(** C31.  A sphere gets the background velocity at its centre, and the
    background angular velocity. *)
Theorem C31_sphere :
  forall Ua Oa E U W x c l,
    fst (add_background_flow_sphere Ua Oa E U W x c) l = Ua l + linear_flow U W E c x l /\
    snd (add_background_flow_sphere Ua Oa E U W x c) l = Oa l + W l.
Proof. exact flow_sphere_ok. Qed.
Print Assumptions C31_sphere.

(** A dumbbell gets the mean and half the difference of the background
    velocities at its two beads. *)
Theorem C31_dumbbell :
  forall Ub D E U W x dx c l, (l < 3)%nat ->
    fst (add_background_flow_dumbbell Ub D E U W x dx c) l =
      Ub l + (linear_flow U W E c (bead_minus x dx) l + linear_flow U W E c (bead_plus x dx) l) / 2 /\
    snd (add_background_flow_dumbbell Ub D E U W x dx c) l =
      D l + (linear_flow U W E c (bead_plus x dx) l - linear_flow U W E c (bead_minus x dx) l) / 2.
Proof. exact flow_dumbbell_ok. Qed.
Print Assumptions C31_dumbbell.

(** Linear in the flow: superposed flows add up; the reversed flow undoes it. *)
Theorem C31_superposition :
  forall Ua Oa Ub D E E' U U' W W' x dx c l a b, (l < 3)%nat ->
    fst (add_background_flow_sphere Ua Oa (fun i j => a * E i j + b * E' i j) (fun i => a * U i + b * U' i)
           (fun i => a * W i + b * W' i) x c) l =
      Ua l + a * linear_flow U W E c x l + b * linear_flow U' W' E' c x l /\
    snd (add_background_flow_dumbbell Ub D (fun i j => a * E i j + b * E' i j) (fun i => a * U i + b * U' i)
           (fun i => a * W i + b * W' i) x dx c) l =
      D l + a * (linear_flow U W E c (bead_plus x dx) l - linear_flow U W E c x l)
          + b * (linear_flow U' W' E' c (bead_plus x dx) l - linear_flow U' W' E' c x l).
Proof. exact flow_linear. Qed.
Print Assumptions C31_superposition.

Theorem C31_reversible :
  forall Ua Oa Ub D E U W x dx c l, (l < 3)%nat ->
    let '(U1, W1) := add_background_flow_sphere Ua Oa E U W x c in
    let '(U2, W2) := add_background_flow_sphere U1 W1 (fun i j => - E i j) (fun i => - U i) (fun i => - W i) x c in
    let '(B1, D1) := add_background_flow_dumbbell Ub D E U W x dx c in
    let '(B2, D2) := add_background_flow_dumbbell B1 D1 (fun i j => - E i j) (fun i => - U i) (fun i => - W i) x dx c in
    U2 l = Ua l /\ W2 l = Oa l /\ B2 l = Ub l /\ D2 l = D l.
Proof. exact flow_reversible. Qed.
Print Assumptions C31_reversible.

(** Instance: simple shear u = (z, 0, 0) about the origin, at (0, 0, 2). *)
Example C31_example :
  fst (add_background_flow_sphere (v3 1 1 1) (v3 0 0 0) (fun i j => match i, j with 0%nat, 2%nat | 2%nat, 0%nat => 1 / 2 | _, _ => 0 end)
         (v3 0 0 0) (v3 0 (1 / 2) 0) (v3 0 0 2) (v3 0 0 0)) 0%nat = 3.
Proof. unfold add_background_flow_sphere, cross, mvec, vsub, rsum. simpl. lra. Qed.
