(** What the checks before the first frame are for. *)
From Coq Require Import Reals List Arith Bool String.
From Verif Require Import Base Py Model_Output Model_Startup.
Import ListNotations.
Local Open Scope R_scope.

(** The forms for dumbbells alone, and those that can be used without spheres. *)
Definition only_dumbbells : list string := ["duf"; "RPY_dumbbells_only"; "stokes_drag_dumbbells_only"]%string.
Definition suits (input_form : string) (Ns : nat) : Prop :=
  (Ns = 0%nat -> input_form = "fts"%string \/ In input_form only_dumbbells) /\
  ((0 < Ns)%nat -> ~ In input_form only_dumbbells).

(** The smallest deviation that is looked up successfully: a ratio is within
    1e-8 + 1e-5 of itself of an entry. *)
Definition can_be_looked_up (table : list R) (r : R) : Prop :=
  exists x, In x table /\ Rabs (x - r) <= / 10 ^ 8 + / 10 ^ 5 * Rabs r.
(** What is checked: the same with 1e-5 of the entry. *)
Definition is_checked (table : list R) (r : R) : Prop :=
  exists x, In x table /\ Rabs (r - x) <= / 10 ^ 8 + / 10 ^ 5 * Rabs x.
(** A sliver below the entry, of relative width 1e-10. *)
Definition on_the_edge (table : list R) (r : R) : Prop :=
  exists x, In x table /\ let low := x - / 10 ^ 5 * x - / 10 ^ 8 in low <= r < low + / 10 ^ 10 * x + / 10 ^ 13.

(** A table whose entries cannot be mistaken for each other. *)
Definition spaced (table : list R) : Prop :=
  (forall x, In x table -> / 10000 <= x <= 10000) /\
  (forall x y, In x table -> In y table -> x < y -> 1001 / 1000 * x <= y).

(** Elements [i] and [j] have a ratio of sizes that is neither in the list nor
    the reciprocal of an entry. *)
Definition offending (sizes lam_range : list R) (i j : nat) : Prop :=
  (i < List.length sizes)%nat /\ (j < List.length sizes)%nat /\
  forall l, In l lam_range -> nth j sizes 0 / nth i sizes 0 <> l /\ nth j sizes 0 / nth i sizes 0 <> 1 / l.
Definition element_of (Ns : nat) (e : element_name) : nat := match e with sphere_named k => k | dumbbell_named k => (Ns + k)%nat end.
