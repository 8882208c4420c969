(** What is said of a set of points and of balls in a box. *)
From Coq Require Import Reals List Arith.
From Verif Require Import Base Spec_Place.
Import ListNotations.
Local Open Scope R_scope.

(** [m] is the smallest distance between two of the points *)
Definition closest_distance (ps : list vec) (m : R) : Prop :=
  (exists i j, (i < j < length ps)%nat /\ dist3 (nth i ps (v3 0 0 0)) (nth j ps (v3 0 0 0)) = m) /\
  (forall i j, (i < j < length ps)%nat -> m <= dist3 (nth i ps (v3 0 0 0)) (nth j ps (v3 0 0 0))).

Definition ball (a : R) : R := 4 / 3 * PI * a ^ 3.
Definition disc (a : R) : R := PI * a ^ 2.
Fixpoint total (f : R -> R) (l : list R) : R :=
  match l with [] => 0 | a :: l' => f a + total f l' end.
(** the beads of dumbbells, the ends first and then the beginnings *)
Definition all_beads (ds : list (vec * vec)) : list vec := map (bead true) ds ++ map (bead false) ds.
