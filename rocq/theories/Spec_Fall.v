(** Two equal spheres pulled alike: their velocity and stresslets in terms of
    the mobility scalars of the pair (Kim and Karrila, section 7.2). *)
From Coq Require Import Reals Arith.
From Verif Require Import Base Model_Mob Spec_Scalars.
Local Open Scope R_scope.

(** [d] the unit vector along the line of centres: the pull along it and across
    it, each with its mobility. *)
Definition exact_drift (x : nat -> R) (mu : R) (d F : vec) : vec := fun l =>
  ((scalar x 0 0 0 + scalar x 0 0 1) * (dot3 F d * d l) + (scalar x 1 0 0 + scalar x 1 0 1) * (F l - dot3 F d * d l)) / mu.
(** Stresslet of the first sphere. *)
Definition exact_stresslet (x : nat -> R) (d F : vec) : mat := fun k l =>
  (scalar x 5 0 0 + scalar x 5 0 1) * (dot3 F d * (d k * d l - delta k l / 3))
  + (scalar x 6 0 0 + scalar x 6 0 1) * (d k * (F l - dot3 F d * d l) + d l * (F k - dot3 F d * d k)).
