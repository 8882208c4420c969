(** What one sphere does in a linear flow (Stokes, Faxen, Einstein), independent
    of the model's matrices. *)
From Coq Require Import Reals Arith Bool List.
From Verif Require Import Base Py Model_Step Model_Output Model_Frame Model_Inputs Model_Sim Spec_Step Spec_Run Spec_Run4 Spec_Push.
Local Open Scope R_scope.

(** The rate of strain prescribed for particle [j]. *)
Definition strain_given (l : list (option (list (list R)))) (j : nat) : mat := fun a b =>
  match nth_error l j with Some (Some m) => nth b (nth a m nil) 0 | _ => 0 end.
Definition symmetric_traceless (E : mat) : Prop :=
  (forall a b, (a < 3)%nat -> (b < 3)%nat -> E a b = E b a) /\ E 0%nat 0%nat + E 1%nat 1%nat + E 2%nat 2%nat = 0.

(** A sphere of radius [a] at [x] in a fluid of viscosity [mu] with the flow [f]
    and the load and strain [i]: it is carried and turned by the flow, moves and
    turns in addition with Stokes' velocities, and resists the strain with the
    stresslet 20/3 pi mu a^3 E.  The planar mode suppresses the motion in y. *)
Definition lone_frame (g : settings) (mu a : R) (i : inputs) (f : flow) (x V W : vec) (frc : fsnapshot) : Prop :=
  let F := load (i_Fa i) 0 in
  let T := load (i_Ta i) 0 in
  let E := strain_given (i_Ea i) 0 in
  (forall l, (l < 3)%nat ->
     V l = (if (g_fully_2d g && Nat.eqb l 1)%bool then 0
            else F l / (6 * PI * mu * a) + linear_flow (f_U f) (f_O f) E (f_centre f) x l) /\
     W l = T l / (8 * PI * mu * a ^ 3) + f_O f l /\
     n_Fa frc 0%nat l = F l) /\
  (forall k l, (k < 3)%nat -> (l < 3)%nat -> n_Sa frc 0%nat k l = 20 / 3 * PI * mu * a ^ 3 * E k l).

(** Turned about the y axis by [theta]. *)
Definition turned_y (theta : R) (v : vec) : vec :=
  v3 (cos theta * v 0%nat + sin theta * v 2%nat) (v 1%nat) (cos theta * v 2%nat - sin theta * v 0%nat).

(** ** Shear in the xz plane (inputs 3 and 7) *)
(** Shear rate at time [t]: constant 1 (input 7), or that of a shear strain of
    amplitude 1/3 and period 10 (input 3); height at which the fluid is at rest. *)
Definition shear_rate (oscillating : bool) (t : R) : R :=
  if oscillating then 1 / 3 * (2 * PI / 10) * cos (2 * PI * t / 10) else 1.
Definition still_height (oscillating : bool) : R := if oscillating then 9 / 4 else 0.
(** Shear strain after [m] steps as Euler's or Adams' and Bashforth's formula adds it up. *)
Definition strain_summed (g : settings) (rate : R -> R) (m : nat) : R :=
  g_dt g * rsum m (fun k =>
    if match g_scheme g with euler => true | _ => Nat.eqb k 0 end then rate (INR k * g_dt g)
    else 3 / 2 * rate (INR k * g_dt g) - 1 / 2 * rate (INR (k - 1) * g_dt g)).

(** Runge-Kutta, with a load [inp t] and flow [fl t] that depend on time only:
    the velocity of stage [k] of frame [m], taken at the position [x] of the
    start of the frame (finding of C27). *)
Definition lone_velocity (mu a : R) (i : inputs) (f : flow) (x : vec) (l : nat) : R :=
  load (i_Fa i) 0 l / (6 * PI * mu * a) + linear_flow (f_U f) (f_O f) (strain_given (i_Ea i) 0) (f_centre f) x l.
Definition lone_spin (mu a : R) (i : inputs) (f : flow) (l : nat) : R := load (i_Ta i) 0 l / (8 * PI * mu * a ^ 3) + f_O f l.
(** Simpson's rule for the strain of frames 0 to m - 1. *)
Definition strain_simpson (dt : R) (rate : R -> R) (m : nat) : R :=
  dt * rsum m (fun k => 1 / 6 * (rate (INR k * dt) + 4 * rate ((INR k + 1 / 2) * dt) + rate ((INR k + 1) * dt))).
