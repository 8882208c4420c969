(** Widely spaced particles. *)
From Coq Require Import Reals Arith.
From Verif Require Import Base Model_Mob.
Local Open Scope R_scope.

(** All radii lie between [a0] and [A] times [a0]. *)
Definition radii_within (n : nat) (a : nat -> R) (a0 A : R) : Prop := forall b, (b < n)%nat -> a0 <= a b <= A * a0.
(** Any two centres are more than [L] apart. *)
Definition spaced (n : nat) (x : nat -> vec) (L : R) : Prop :=
  forall p q, (p < n)%nat -> (q < n)%nat -> p <> q -> L < norm (vsub (x p) (x q)).
