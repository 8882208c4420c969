(** What the example scripts claim to show. *)
From Coq Require Import Reals.
From Verif Require Import Base.
Local Open Scope R_scope.

(** The drag coefficient of a sphere of radius [a] under the force [F] moving
    at the speed [U] in a fluid of viscosity [mu] (docstring of example-a.py). *)
Definition drag_coefficient (F mu a U : R) : R := F / (6 * PI * mu * a * U).

(** The fraction of a box with the given sides filled by [n] spheres. *)
Definition volume_fraction (n : nat) (sizes : nat -> R) (sides : vec) : R :=
  rsum n (fun j => 4 / 3 * PI * sizes j ^ 3) / (sides 0%nat * sides 1%nat * sides 2%nat).
