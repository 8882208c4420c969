(** Far field of a pair of spheres, and what it means for a table to list it. *)
From Coq Require Import Reals Arith Bool List.
From Verif Require Import Base Model_Mob Model_Minf Spec_Layout Spec_Close.
Import ListNotations.
Local Open Scope R_scope.

(** Two spheres and nothing else. *)
Definition two_spheres (x0 x1 : vec) (a0 a1 : R) : posdata :=
  mkPos 2 0 (fun i => match i with 0%nat => a0 | _ => a1 end) (fun i => match i with 0%nat => x0 | _ => x1 end)
    (fun _ => 0) (fun _ => v3 0 0 0) (fun _ => v3 0 0 0).

(** Block of a 22 by 22 matrix of two spheres: rows of kind [k1] of sphere [u],
    columns of kind [k2] of sphere [v]. *)
Definition pair_block (J : mat) (k1 : kind) (u : nat) (k2 : kind) (v : nat) (i j : nat) : R :=
  J (kstart 2 k1 u + i)%nat (kstart 2 k2 v + j)%nat.

(** [J p q] is the far-field resistance matrix of beads [p] and [q] alone, taken
    as spheres. *)
Definition pair_resistances (bb : bool) (x : nat -> vec) (a : nat -> R) (mu : R) (J : nat -> nat -> mat)
    (p q : nat) : Prop :=
  is_inv 22 (generate_Minfinity bb (two_spheres (x p) (x q) (a p) (a q)) mu) (J p q).

(** Sum of the pairwise far-field resistances: block of spheres [p] and [q] out
    of [n] beads, over the pairs closer than the cutoff. *)
Definition pairwise_far_field (J : nat -> nat -> mat) (x : nat -> vec) (a : nat -> R) (n : nat) (cutoff_factor : R)
    (k1 : kind) (p : nat) (k2 : kind) (q : nat) (i j : nat) : R :=
  let close := fun q' => if Rlt_dec (scaled_distance x a p q') (2 * cutoff_factor) then true else false in
  if Nat.eqb p q then
    rsum n (fun q' => if (negb (Nat.eqb q' p) && close q')%bool then pair_block (J p q') k1 0 k2 0 i j else 0)
  else if close q then pair_block (J p q) k1 0 k2 1 i j else 0.

(** Ratios are told apart by [np.isclose] with its default tolerances. *)
Definition distinguishable (lams : list R) : Prop :=
  forall l l', In l lams -> In l' lams -> l <> l' -> / 10 ^ 8 + / 10 ^ 5 * Rabs l' < Rabs (l - l').

(** Drag on a lone sphere of radius [a] in a fluid of viscosity 1: Stokes' law,
    its counterpart for rotation, and the stresslet in a strain. *)
Definition lone_drag (k : kind) (a : R) : R :=
  match k with KU => 6 * PI * a | KO => 8 * PI * a ^ 3 | KS => 20 / 3 * PI * a ^ 3 | KB => 0 end.
(** Blocks (k1 of p, k2 of q): the drag of sphere [p], once for each neighbour. *)
Definition neighbour_drags (x : nat -> vec) (a : nat -> R) (n : nat) (cutoff_factor mu : R)
    (k1 : kind) (p : nat) (k2 : kind) (q : nat) (i j : nat) : R :=
  let neighbours := rsum n (fun q' =>
    if Nat.eqb q' p then 0 else if Rlt_dec (scaled_distance x a p q') (2 * cutoff_factor) then 1 else 0) in
  match k1, k2 with
  | KU, KU | KO, KO | KS, KS => if (Nat.eqb p q && Nat.eqb i j)%bool then mu * neighbours * lone_drag k1 (a p) else 0
  | _, _ => 0
  end.
