(** Bead-level and dumbbell-level vectors.
    A bead-level vector holds, after the 11 Ns sphere entries, 3 Nd entries for
    the first beads and then 3 Nd entries for the second beads. *)
From Coq Require Import Reals Arith.
From Verif Require Import Base.
Local Open Scope R_scope.

(** Bead forces (f1, f2) to (f1 + f2, f2 - f1). *)
Definition total_and_difference (Ns Nd : nat) (f : vec) : vec := fun i =>
  if Nat.ltb i (11 * Ns) then f i
  else if Nat.ltb i (11 * Ns + 3 * Nd) then f i + f (i + 3 * Nd)%nat
  else f i - f (i - 3 * Nd)%nat.

(** Bead velocities (u1, u2) to ((u1 + u2)/2, (u2 - u1)/2). *)
Definition mean_and_half_difference (Ns Nd : nat) (u : vec) : vec := fun i =>
  if Nat.ltb i (11 * Ns) then u i
  else if Nat.ltb i (11 * Ns + 3 * Nd) then (u i + u (i + 3 * Nd)%nat) / 2
  else (u i - u (i - 3 * Nd)%nat) / 2.
