(** Simple shear, and lattices moving with it. *)
From Coq Require Import Reals ZArith List Arith.
From Verif Require Import Base.
Import ListNotations.
Local Open Scope R_scope.

(** The flow with velocity [rate * x_j] along axis [i]. *)
Definition simple_shear (i j : nat) (rate : R) (x : vec) : vec :=
  fun l => if Nat.eqb l i then rate * x j else 0.

(** Point carried by that flow until the shear strain is [strain]. *)
Definition carried (i j : nat) (strain : R) (x : vec) : vec :=
  fun l => x l + simple_shear i j strain x l.

(** Direction and gradient axis of the oscillatory shear with the given unused
    axis: x along z (or the transpose) for 1, x along y (or the transpose) for 2. *)
Definition osc_axes (axis : nat) (transpose : bool) : nat * nat :=
  match axis with
  | 1%nat => if transpose then (2, 0)%nat else (0, 2)%nat
  | _ => if transpose then (1, 0)%nat else (0, 1)%nat
  end.
(** The direction can be reversed only for axis 2. *)
Definition osc_sign (axis : nat) (opposite : bool) : R :=
  match axis with 1%nat => 1 | _ => if opposite then -1 else 1 end.

(** Integer combinations of three vectors. *)
Definition in_lattice (b : nat -> vec) (v : vec) : Prop :=
  exists m : nat -> Z, forall l, (l < 3)%nat -> v l = rsum 3 (fun k => IZR (m k) * b k l).

(** Images of each other. *)
Definition images (b : nat -> vec) (x y : vec) : Prop := in_lattice b (fun l => y l - x l).

(** Volume of the parallelepiped. *)
Definition volume (b : nat -> vec) : R := dot3 (b 0%nat) (cross (b 1%nat) (b 2%nat)).

(** Edges of a rectangular box. *)
Definition edges (box : vec) (k : nat) : vec := fun l => if Nat.eqb k l then box k else 0.
