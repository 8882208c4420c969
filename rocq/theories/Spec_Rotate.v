(** Rotations and reflections of configurations and of grand vectors. *)
From Coq Require Import Reals Arith Bool List.
From Verif Require Import Base Model_Pack Model_Mob Model_Layout Model_Minf Spec_Layout Spec_Minf.
Import ListNotations.
Local Open Scope R_scope.

(** [Q] is orthogonal: its transpose is its inverse.  Its determinant is 1 for
    a rotation and -1 for a reflection. *)
Definition orthogonal (Q : mat) : Prop := is_inv 3 Q (mtr Q).
Definition det3 (Q : mat) : R :=
  Q 0%nat 0%nat * (Q 1%nat 1%nat * Q 2%nat 2%nat - Q 1%nat 2%nat * Q 2%nat 1%nat)
  - Q 0%nat 1%nat * (Q 1%nat 0%nat * Q 2%nat 2%nat - Q 1%nat 2%nat * Q 2%nat 0%nat)
  + Q 0%nat 2%nat * (Q 1%nat 0%nat * Q 2%nat 1%nat - Q 1%nat 1%nat * Q 2%nat 0%nat).

(** Vectors turn by [Q]; so do tensors, in each index. *)
Definition rot (Q : mat) (r : vec) : vec := mvec 3 Q r.
Definition rot2 (Q : mat) (f : nat -> nat -> R) (i j : nat) : R :=
  rsum 3 (fun a => rsum 3 (fun b => Q i a * Q j b * f a b)).
Definition rot3 (Q : mat) (f : nat -> nat -> nat -> R) (i j k : nat) : R :=
  rsum 3 (fun a => rsum 3 (fun b => rsum 3 (fun c => Q i a * Q j b * Q k c * f a b c))).
Definition rot4 (Q : mat) (f : nat -> nat -> nat -> nat -> R) (i j k l : nat) : R :=
  rsum 3 (fun a => rsum 3 (fun b => rsum 3 (fun c => rsum 3 (fun d => Q i a * Q j b * Q k c * Q l d * f a b c d)))).

(** The symmetric traceless tensor with condensed components [c]. *)
Definition tensor_of (c : nat -> R) : nat -> nat -> R :=
  get2 (uncondense1 [c 0%nat; c 1%nat; c 2%nat; c 3%nat; c 4%nat]).
(** Condensed components of the turned tensor. *)
Definition rot5 (Q : mat) (c : nat -> R) (m : nat) : R := condense_idx (rot2 Q (tensor_of c)) m.

(** The configuration turned about the origin. *)
Definition turned (Q : mat) (p : posdata) : posdata :=
  mkPos (num_spheres p) (num_dumbbells p)
    (sphere_sizes p) (fun i => rot Q (sphere_positions p i))
    (dumbbell_sizes p) (fun i => rot Q (dumbbell_positions p i)) (fun i => rot Q (dumbbell_deltax p i)).

(** A grand vector (U, O, E, Ub1, Ub2) or (F, T, S, Fb1, Fb2), also in the
    dumbbell coordinates, with all its vectors and tensors turned.  Angular
    velocities and torques are pseudovectors: they change sign when reflected. *)
Definition turn_vec (Q : mat) (Ns : nat) (v : vec) (r : nat) : R :=
  if Nat.ltb r (3 * Ns) then rot Q (fun j => v (3 * (r / 3) + j)%nat) (r mod 3)
  else if Nat.ltb r (6 * Ns) then det3 Q * rot Q (fun j => v (3 * (r / 3) + j)%nat) (r mod 3)
  else if Nat.ltb r (11 * Ns) then
    rot5 Q (fun j => v (6 * Ns + 5 * ((r - 6 * Ns) / 5) + j)%nat) ((r - 6 * Ns) mod 5)
  else rot Q (fun j => v (11 * Ns + 3 * ((r - 11 * Ns) / 3) + j)%nat) ((r - 11 * Ns) mod 3).

(** Reflection in the plane z = 0. *)
Definition mirror_z : mat := fun i j =>
  match i, j with 0%nat, 0%nat => 1 | 1%nat, 1%nat => 1 | 2%nat, 2%nat => -1 | _, _ => 0 end.
(** All centres and dumbbell vectors in the plane z = 0. *)
Definition planar_configuration (p : posdata) : Prop :=
  (forall i, exists x y, sphere_positions p i = v3 x y 0) /\
  (forall i, exists x y, dumbbell_positions p i = v3 x y 0) /\
  (forall i, exists x y, dumbbell_deltax p i = v3 x y 0).
(** Vectors in the plane, pseudovectors along z, tensors without xz and yz
    components (3 and 4 of the condensed ones). *)
Definition planar_vec (Ns Nd : nat) (v : vec) : Prop :=
  (forall p, (p < Ns)%nat -> v (3 * p + 2)%nat = 0 /\ v (3 * Ns + 3 * p)%nat = 0 /\ v (3 * Ns + 3 * p + 1)%nat = 0 /\
     v (6 * Ns + 5 * p + 3)%nat = 0 /\ v (6 * Ns + 5 * p + 4)%nat = 0) /\
  (forall d, (d < 2 * Nd)%nat -> v (11 * Ns + 3 * d + 2)%nat = 0).
