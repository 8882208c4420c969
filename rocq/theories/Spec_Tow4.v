(** Runge-Kutta runs with prescribed forces, in closed form. *)
From Coq Require Import Reals Arith Bool List.
From Verif Require Import Base Py Model_Mob Model_Step Model_Output Model_Frame Model_Inputs Model_Sim
  Spec_Minf Spec_Step Spec_Frame Spec_Run Spec_Run4 Spec_Push Spec_Tow.
Local Open Scope R_scope.

Section Tow4.
Variable bb : bool.
Variables Ns Nd : nat.
Notation n := (Ns + 2 * Nd)%nat.

(** Velocities and rates of strain of spheres and beads placed as in [q], in a
    fluid of viscosity [mu] at rest, under the forces and torques of [i]. *)
Definition tow_velocity (q : config) (mu : R) (i : inputs) : nat -> vec :=
  towed_velocity bb mu Ns n (beads_of Ns Nd q) (radii_of Ns Nd q)
    (bead_force Ns Nd (load (i_Fa i)) (load (i_Fb i)) (load (i_DFb i))) (bead_torque Ns (load (i_Ta i))).
Definition tow_strain (q : config) (mu : R) (i : inputs) : nat -> mat :=
  towed_strain bb mu Ns n (beads_of Ns Nd q) (radii_of Ns Nd q)
    (bead_force Ns Nd (load (i_Fa i)) (load (i_Fb i)) (load (i_DFb i))) (bead_torque Ns (load (i_Ta i))).

(** Frame [m], stages 0 to 3 in the configurations [q 0] to [q 3] with inputs
    [i] and flows [f].  [m'] is the latest frame due for an inversion; a later
    stage of such a frame has a far field of its own if
    rk4_generate_minfinity_for_each_stage is set, all others have that of the
    start of frame [m'] (viscosity [mu]).  The background flow, with the strain
    of the sphere for that of the fluid, and at beads that of sphere 0 (in the
    second stage, that of the first stage), is taken at the positions [p] of
    the start of the frame; [p'] is its end. *)
Definition tow_frame (g : settings) (m m' : nat) (start : config) (mu : R) (q : nat -> config) (i : nat -> inputs) (f : nat -> flow) (p p' : config) : Prop :=
  let own := fun k => (Nat.ltb 0 k && g_rk4_each g && Nat.eqb m' m)%bool in
  let placed := fun k => if own k then q k else start in
  let viscosity := fun k => if own k then f_mu (f k) else mu in
  let strain := fun k => tow_strain (placed k) (viscosity k) (i k) in
  let background := fun k (A : mat) x => linear_flow (f_U (f k)) (f_O (f k)) A (f_centre (f k)) x in
  let V := fun k b l => tow_velocity (placed k) (viscosity k) (i k) b l
    + background k (if Nat.ltb b Ns then strain k b else strain (strain_stage k) 0%nat) (beads_of Ns Nd p b) l in
  let same_sizes := fun r => c_ssizes r = c_ssizes p /\ c_dsizes r = c_dsizes p in
  q 0%nat = p /\ (forall k, (k < 4)%nat -> same_sizes (q k)) /\ same_sizes p' /\
  (forall k b l, (k < 3)%nat -> (b < n)%nat -> (l < 3)%nat ->
     beads_of Ns Nd (q (S k)) b l = beads_of Ns Nd p b l + stage_step (g_dt g) k * V k b l) /\
  (forall b l, (b < n)%nat -> (l < 3)%nat ->
     beads_of Ns Nd p' b l = beads_of Ns Nd p b l
       + g_dt g * (if (g_fully_2d g && Nat.eqb l 1 && Nat.ltb b Ns)%bool then 0 else mean4 (fun k => V k b l))).
End Tow4.
