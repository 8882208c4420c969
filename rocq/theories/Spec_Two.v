(** Particles that are not crowded, and the power spent by isolated spheres. *)
From Coq Require Import Reals Arith.
From Verif Require Import Base Model_Mob Spec_Minf.
Local Open Scope R_scope.

(** How strongly two of the beads see each other: twice the geometric mean of
    their radii over the distance of their centres.  At most 1 for beads that do
    not overlap; beads that do are counted as touching. *)
Definition influence (x : nat -> vec) (a : nat -> R) (p q : nat) : R :=
  2 * sqrt (a p * a q) / used_separation (x p) (x q) (a p) (a q).

(** No bead has neighbours with influences that add up to more than 1. *)
Definition uncrowded (n : nat) (x : nat -> vec) (a : nat -> R) : Prop :=
  forall p, (p < n)%nat -> rsum n (fun q => if Nat.eqb p q then 0 else influence x a p q) <= 1.

(** The power with which forces, torques and stresslets [v] = (F, T, S) would
    drive [n] spheres of radii [a] if each were alone in the fluid. *)
Definition lone_power (n : nat) (a : nat -> R) (mu : R) (v : vec) : R :=
  rsum n (fun p =>
    rsum 3 (fun i => v (3 * p + i)%nat ^ 2) / (6 * PI * mu * a p)
    + rsum 3 (fun i => v (3 * n + 3 * p + i)%nat ^ 2) / (8 * PI * mu * a p ^ 3)
    + rsum 5 (fun i => v (6 * n + 5 * p + i)%nat ^ 2) / (20 / 3 * PI * mu * a p ^ 3)).

(** A configuration with room: positive radii, beads not crowded and further
    than 1e-8 from each other.  Any two spheres have room, overlapping or not. *)
Definition roomy (nb : nat) (x : nat -> vec) (a : nat -> R) : Prop :=
  (forall b, (b < nb)%nat -> 0 < a b) /\
  (forall b b', (b < nb)%nat -> (b' < nb)%nat -> b <> b' -> / 10 ^ 8 < norm (vsub (x b) (x b'))) /\
  uncrowded nb x a.

(** Sum of the speeds at which unit forces would move spheres of radii [a] in a
    fluid of viscosity 1, each alone (Stokes' law). *)
Definition lone_fall (n : nat) (a : nat -> R) : R := rsum n (fun j => 1 / (6 * PI * a j)).
