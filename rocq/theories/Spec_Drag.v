(** Runs with the drag matrix (use_drag_Minfinity) in closed form: every sphere
    and every bead moves by itself, independent of the model's matrices. *)
From Coq Require Import Reals Arith Bool List.
From Verif Require Import Base Py Model_Mob Model_Step Model_Output Model_Frame Model_Inputs Model_Sim
  Spec_Step Spec_Frame Spec_Run Spec_Run4 Spec_Push Spec_Tow Spec_Alone.
Local Open Scope R_scope.

Section Drag.
Variables Ns Nd : nat.
(** The configuration whose radii count. *)
Variable p0 : config.

(** Velocity of sphere or bead [b] and spin of sphere [j] under the forces and
    torques of [i]: Stokes' without the factors 6 pi (finding of C12). *)
Definition drag_velocity (mu : R) (i : inputs) (b : nat) : vec := fun l =>
  bead_force Ns Nd (load (i_Fa i)) (load (i_Fb i)) (load (i_DFb i)) b l / (mu * radii_of Ns Nd p0 b).
Definition drag_spin (mu : R) (i : inputs) (j : nat) : vec := fun l =>
  load (i_Ta i) j l / (4 / 3 * mu * c_ssizes p0 j ^ 3).
Definition drag_stresslet (mu : R) (i : inputs) (j : nat) : mat := fun k l =>
  10 / 9 * mu * c_ssizes p0 j ^ 3 * strain_given (i_Ea i) j k l.

(** With the background flow [f] at the places of [p].  The strain is that given
    for the sphere, and at beads that given for sphere 0 in [i']. *)
Definition drag_speed (p : config) (f : flow) (i i' : inputs) (b : nat) : vec := fun l =>
  drag_velocity (f_mu f) i b l +
  linear_flow (f_U f) (f_O f) (if Nat.ltb b Ns then strain_given (i_Ea i) b else strain_given (i_Ea i') 0) (f_centre f) (beads_of Ns Nd p b) l.
Definition drag_turn (f : flow) (i : inputs) (j : nat) : vec := fun l => drag_spin (f_mu f) i j l + f_O f l.

(** The planar mode suppresses the motion of spheres in y. *)
Definition planar (g : settings) (b l : nat) (v : R) : R :=
  if (g_fully_2d g && Nat.eqb l 1 && Nat.ltb b Ns)%bool then 0 else v.
Definition arm (p : config) (j k : nat) : vec := vsub (c_srot p j k) (c_spos p j).
Definition same_radii (p : config) : Prop := c_ssizes p = c_ssizes p0 /\ c_dsizes p = c_dsizes p0.

(** From [p] to [q] in time [t] with speeds [V] and, in spheres, spins [W]. *)
Definition carried (inv3 : mat -> mat) (t : R) (V W : nat -> vec) (p q : config) : Prop :=
  (forall b l, (b < Ns + 2 * Nd)%nat -> (l < 3)%nat -> beads_of Ns Nd q b l = beads_of Ns Nd p b l + t * V b l) /\
  (forall j k, (j < Ns)%nat -> inverts inv3 -> (exists l, (l < 3)%nat /\ arm p j k l <> 0) ->
     forall l, (l < 3)%nat -> arm q j k l = rodrigues (W j) (norm (W j) * t) (arm p j k) l).

(** Spheres and the middles of dumbbells; the spring force of the oscillating
    shear (input 3): stiffness 1, natural length 2. *)
Definition centre_of (p : config) (j : nat) : vec := if Nat.ltb j Ns then c_spos p j else c_dpos p (j - Ns).
Definition spring (oscillating : bool) (dx : vec) : vec := fun l =>
  if oscillating then - (dx l - 2 * (dx l / norm dx)) else 0.

(** Shear rates of the stages of frame [m]: that of Simpson's rule, and what the
    first half step changes (finding of C101). *)
Definition simpson_rate (dt : R) (rate : R -> R) (m : nat) : R :=
  1 / 6 * (rate (INR m * dt) + 4 * rate ((INR m + 1 / 2) * dt) + rate ((INR m + 1) * dt)).
Definition half_step_change (dt : R) (rate : R -> R) (m : nat) : R :=
  rate (INR m * dt) - rate ((INR m + 1 / 2) * dt).
End Drag.
