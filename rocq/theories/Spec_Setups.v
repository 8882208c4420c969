(** Arrangements without overlaps. *)
From Coq Require Import Reals List Arith ZArith.
From Verif Require Import Base Spec_Place Model_Setups.
Import ListNotations.
Local Open Scope R_scope.

(** All spheres and all dumbbell beads, with their radii. *)
Definition all_beads (u : setup) : list (R * vec) :=
  combine (u_ss u) (u_sp u)
  ++ flat_map (fun d => [(fst d, bead false (snd d)); (fst d, bead true (snd d))]) (combine (u_ds u) (combine (u_dp u) (u_dx u))).
Definition no_overlap (l : list (R * vec)) : Prop :=
  ForallOrdPairs (fun a b => apart (fst a) (snd a) (fst b) (snd b)) l.
(** Positive sizes, as many of them as positions, and nothing overlaps. *)
Definition sound_setup (u : setup) : Prop :=
  length (u_sp u) = length (u_ss u) /\ length (u_dp u) = length (u_ds u) /\ length (u_dx u) = length (u_ds u) /\
  (forall r x, In (r, x) (all_beads u) -> 0 < r) /\ no_overlap (all_beads u).
(** In the plane y = 0. *)
Definition planar (u : setup) : Prop := forall r x, In (r, x) (all_beads u) -> x 1%nat = 0.

(** Scaled separation of two spheres, s' = 2 r / (a1 + a2): it is 2 when they touch. *)
Definition scaled_separation (a1 : R) (x1 : vec) (a2 : R) (x2 : vec) : R := 2 * dist3 x1 x2 / (a1 + a2).

(** Lattice vectors of a cubic box of side [s], and the points of the simple
    cubic lattice of spacing [s / 2] through (s/4, s/4, s/4). *)
Definition image (s : R) (x : vec) (m : Z * Z * Z) : vec :=
  let '(a, b, c) := m in v3 (x 0%nat + s * IZR a) (x 1%nat + s * IZR b) (x 2%nat + s * IZR c).
Definition cubic (s : R) (m : Z * Z * Z) : vec :=
  let '(a, b, c) := m in v3 (s / 4 + s / 2 * IZR a) (s / 4 + s / 2 * IZR b) (s / 4 + s / 2 * IZR c).
