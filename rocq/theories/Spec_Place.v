(** Placement of particles in a box. *)
From Coq Require Import Reals List Arith.
From Verif Require Import Base.
Import ListNotations.
Local Open Scope R_scope.

Definition dist3 (p q : vec) : R :=
  sqrt ((p 0%nat - q 0%nat) ^ 2 + (p 1%nat - q 1%nat) ^ 2 + (p 2%nat - q 2%nat) ^ 2).
(** closed box with the given corners *)
Definition in_box (lo hi p : vec) : Prop := forall i, (i < 3)%nat -> lo i <= p i <= hi i.
(** spheres that do not overlap (they may touch) *)
Definition apart (r1 : R) (p1 : vec) (r2 : R) (p2 : vec) : Prop := r1 + r2 <= dist3 p1 p2.
(** free of all the given spheres *)
Definition free (r : R) (p : vec) (l : list (R * vec)) : Prop := forall r' p', In (r', p') l -> apart r p r' p'.

(** The k-th, (k+3)-th, ... random points are proposed in turn; the first one
    that is free is taken. *)
Inductive first_free (point : nat -> vec) (r : R) (l : list (R * vec)) : nat -> vec -> nat -> Prop :=
| ff_here k : free r (point k) l -> first_free point r l k (point k) (k + 3)
| ff_later k p k' : ~ free r (point k) l -> first_free point r l (k + 3) p k' -> first_free point r l k p k'.
Inductive in_turn (point : nat -> vec) : nat -> list R -> list (R * vec) -> list vec -> nat -> Prop :=
| it_nil k l : in_turn point k [] l [] k
| it_cons k r sizes l p k1 ps k2 : first_free point r l k p k1 -> in_turn point k1 sizes (l ++ [(r, p)]) ps k2 ->
    in_turn point k (r :: sizes) l (p :: ps) k2.

(** The two beads of a dumbbell at [x] with end-to-end vector [d]. *)
Definition bead (b : bool) (xd : vec * vec) : vec :=
  fun i => fst xd i + (if b then 1 / 2 else - (1 / 2)) * snd xd i.
