(** Placement of particles in a box that repeats along x and z. *)
From Coq Require Import Reals List Arith ZArith.
From Verif Require Import Base Spec_Place.
Import ListNotations.
Local Open Scope R_scope.

(** the copy of the point [p] in the box which is [m] boxes along x and [n] along z *)
Definition image (lo hi p : vec) (m n : Z) : vec :=
  v3 (p 0%nat + IZR m * (hi 0%nat - lo 0%nat)) (p 1%nat) (p 2%nat + IZR n * (hi 2%nat - lo 2%nat)).
