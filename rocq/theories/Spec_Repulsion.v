(** A short-range repulsion between spheres, and its sums. *)
From Coq Require Import Reals Arith Bool.
From Verif Require Import Base Model_Mob Spec_Close.
Local Open Scope R_scope.

(** Magnitude as a function of the gap (scaled distance minus 2). *)
Definition repulsion_size (strength tau a1 a2 gap : R) : R :=
  strength * (2 * a1 * a2 / (a1 + a2)) * exp (- (tau * Rmax 0 gap)).

(** Force on sphere [p] from sphere [q], for centres [x] and radii [a]. *)
Definition repulsion (strength tau : R) (x : nat -> vec) (a : nat -> R) (p q : nat) : vec :=
  fun l => if Rlt_dec 0 (scaled_distance x a p q) then
             if Rlt_dec (scaled_distance x a p q) (11 / 5) then
               - (repulsion_size strength tau (a p) (a q) (scaled_distance x a p q - 2) * direction x p q l)
             else 0
           else 0.

(** Force on sphere [p] from all [n] spheres. *)
Definition total_repulsion (strength tau : R) (x : nat -> vec) (a : nat -> R) (n p : nat) : vec :=
  fun l => rsum n (fun q => repulsion strength tau x a p q l).

(** The beads of a suspension: spheres, then first beads, then second beads of
    the dumbbells. *)
Definition all_beads {A} (Ns Nd : nat) (s d1 d2 : nat -> A) (b : nat) : A :=
  if Nat.ltb b Ns then s b else if Nat.ltb b (Ns + Nd) then d1 (b - Ns)%nat else d2 (b - Ns - Nd)%nat.
