(** Particles beyond the reach of the near field, in terms of what is saved. *)
From Coq Require Import Reals Arith Bool List.
From Verif Require Import Base Model_Mob Model_Frame Spec_Push Spec_Tow.
Local Open Scope R_scope.

Section Apart.
Variables Ns Nd : nat.
(** Place of sphere or bead [b] in the saved configuration [x]: spheres, first
    beads (half the extension behind the centre), second beads (before it). *)
Definition saved_bead (x : snapshot) (b : nat) : vec := fun l =>
  if Nat.ltb b Ns then n_pos x b l
  else if Nat.ltb b (Ns + Nd) then n_pos x b l - n_dx x (b - Ns)%nat l / 2
  else n_pos x (b - Nd)%nat l + n_dx x (b - Ns - Nd)%nat l / 2.
(** All pairs of spheres and beads are at least [cutoff_factor] times the sum of
    their radii apart. *)
Definition beyond (radius : nat -> R) (cutoff_factor : R) (x : snapshot) : Prop :=
  forall i j, (i < j < Ns + 2 * Nd)%nat ->
    cutoff_factor * (radius i + radius j) <= norm (vsub (saved_bead x i) (saved_bead x j)).
End Apart.
