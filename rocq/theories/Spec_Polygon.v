(** Plane geometry for C58, independent of the model: convex polygons by the side
    on which points lie of the directed edges. *)
From Coq Require Import Reals List Arith.
Local Open Scope R_scope.

Definition point := (R * R)%type.

(** Twice the signed area of the triangle a, b, p: positive when p is on the left
    of the line from a to b. *)
Definition side (a b p : point) : R :=
  (fst b - fst a) * (snd p - snd a) - (snd b - snd a) * (fst p - fst a).

(** Vertex number i, counted cyclically. *)
Definition vertex (poly : list point) (i : nat) : point := nth (i mod length poly) poly (0, 0).

(** Strictly convex, listed counterclockwise (s = 1) or clockwise (s = -1): all
    other vertices are strictly on the same side of each edge. *)
Definition strictly_convex (s : R) (poly : list point) : Prop :=
  (3 <= length poly)%nat /\
  forall i j, (i < length poly)%nat -> (j < length poly)%nat -> j <> i -> j <> (S i mod length poly)%nat ->
    0 < s * side (vertex poly i) (vertex poly (S i)) (vertex poly j).

(** Strictly inside all edges; strictly outside one of them. *)
Definition interior (s : R) (poly : list point) (p : point) : Prop :=
  forall i, (i < length poly)%nat -> 0 < s * side (vertex poly i) (vertex poly (S i)) p.
Definition exterior (s : R) (poly : list point) (p : point) : Prop :=
  exists i, (i < length poly)%nat /\ s * side (vertex poly i) (vertex poly (S i)) p < 0.
