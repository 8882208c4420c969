(** Work done by the forces of a run, and heights. *)
From Coq Require Import Reals List Arith.
From Verif Require Import Base Py Model_Output Model_Frame Model_Inputs Spec_Run.
Local Open Scope R_scope.

Section Work.
Variables Ns Nd : nat.

(** Work of the saved forces along the displacement from one saved frame to
    another.  For a dumbbell, with the sum F = F1 + F2 and the difference
    D = F2 - F1 of the forces on its beads at x - dx/2 and x + dx/2, this is
    F . x + D . dx/2 = F1 . x1 + F2 . x2 (displacements). *)
Definition work (f : fsnapshot) (s s' : snapshot) : R :=
  rsum Ns (fun j => dot3 (n_Fa f j) (vsub (n_pos s' j) (n_pos s j))) +
  rsum Nd (fun d => dot3 (n_Fb f d) (vsub (n_pos s' (Ns + d)%nat) (n_pos s (Ns + d)%nat)) +
                    dot3 (n_DFb f d) (vsub (n_dx s' d) (n_dx s d)) / 2).

(** Nothing is in another place, and nothing is pushed or strained. *)
Definition same_places (s s' : snapshot) : Prop :=
  (forall j l, (j < Ns + Nd)%nat -> (l < 3)%nat -> n_pos s' j l = n_pos s j l) /\
  (forall d l, (d < Nd)%nat -> (l < 3)%nat -> n_dx s' d l = n_dx s d l).
Definition no_forces (f : fsnapshot) : Prop :=
  (forall j, (j < Ns)%nat -> (forall l, (l < 3)%nat -> n_Fa f j l = 0) /\
     forall a b, (a < 3)%nat -> (b < 3)%nat -> n_Sa f j a b = 0) /\
  (forall d l, (d < Nd)%nat -> (l < 3)%nat -> n_Fb f d l = 0 /\ n_DFb f d l = 0).

(** Sum of the heights of the spheres. *)
Definition heights (s : snapshot) : R := rsum Ns (fun j => n_pos s j 2%nat).
End Work.

(** Only forces (or velocities) of particles are given: no torques, no strain
    and no flow. *)
Definition forced_only (i : inputs) (f : flow) : Prop :=
  (forall r, In (Some r) (i_Ta i) -> r = zeros3) /\ (forall m, In (Some m) (i_Ea i) -> m = zeros33) /\
  (forall l, (l < 3)%nat -> f_U f l = 0 /\ f_O f l = 0).
