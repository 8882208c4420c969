(** Change of the unit of length. *)
From Coq Require Import Reals Arith.
From Verif Require Import Base Model_Mob Model_Minf.
Local Open Scope R_scope.

(** All radii, positions and dumbbell vectors multiplied by [h]. *)
Definition rescaled (h : R) (p : posdata) : posdata :=
  mkPos (num_spheres p) (num_dumbbells p)
    (fun i => h * sphere_sizes p i) (fun i => vscal h (sphere_positions p i))
    (fun i => h * dumbbell_sizes p i) (fun i => vscal h (dumbbell_positions p i)) (fun i => vscal h (dumbbell_deltax p i)).

(** Torques and stresslets of spheres carry one power of length more than
    forces (entries 3 Ns to 11 Ns - 1 of the grand vector). *)
Definition weight (h : R) (Ns r : nat) : R :=
  if Nat.ltb r (3 * Ns) then 1 else if Nat.ltb r (11 * Ns) then h else 1.

(** [M'] is the mobility matrix [M] after lengths have been multiplied by [h]:
    velocity/force goes like 1/h, velocity/torque and angular velocity/force like
    1/h^2, angular velocity/torque like 1/h^3; strain and stresslet like angular
    velocity and torque.  Resistance matrices the other way round. *)
Definition mobility_rescaled (h : R) (Ns n : nat) (M M' : mat) : Prop :=
  forall r c, (r < n)%nat -> (c < n)%nat -> M' r c = M r c / (h * weight h Ns r * weight h Ns c).
Definition resistance_rescaled (h : R) (Ns n : nat) (M M' : mat) : Prop :=
  forall r c, (r < n)%nat -> (c < n)%nat -> M' r c = h * weight h Ns r * weight h Ns c * M r c.

(** Any two of the [n] beads are more than 1e-8 apart. *)
Definition apart (n : nat) (x : nat -> vec) : Prop :=
  forall p q, (p < n)%nat -> (q < n)%nat -> p <> q -> / 10 ^ 8 < norm (vsub (x p) (x q)).
