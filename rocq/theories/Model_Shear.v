(** Model of the shear inputs.
    Source: stokesian_dynamics/setups/functions_inputs.py 84-179. *)
From Coq Require Import Reals List Arith Bool.
From Verif Require Import Base Py Model_Step.
Import ListNotations.
Local Open Scope R_scope.

(** The tuple (Ea_in, U_infinity, O_infinity, centre_of_background_flow,
    Ot_infinity, Et_infinity). *)
Record shear := mkShear {
  h_Ea : list mat; h_U : vec; h_O : vec; h_centre : vec; h_Ot : vec; h_Et : mat }.

(** The literal [[0,0,c],[0,0,0],[c,0,0]] and [[0,c,0],[c,0,0],[0,0,0]] *)
Definition literal_xz (c : R) : mat := fun i j =>
  match i, j with 0%nat, 2%nat => c | 2%nat, 0%nat => c | _, _ => 0 end.
Definition literal_xy (c : R) : mat := fun i j =>
  match i, j with 0%nat, 1%nat => c | 1%nat, 0%nat => c | _, _ => 0 end.

(** 149-179 [constant_shear].  [frameno] is real: RK4 passes half frames. *)
Definition constant_shear (gammadot frameno timestep : R) (centre : vec) (num_spheres : nat) : shear :=
  let t := frameno * timestep in
  mkShear (repeat (literal_xz (5 / 10 * gammadot)) (Nat.max 1 num_spheres))
    (v3 0 0 0) (v3 0 (5 / 10 * gammadot) 0) centre
    (v3 0 (5 / 10 * gammadot * t) 0) (literal_xz (5 / 10 * gammadot * t)).

(** 84-146 [oscillatory_shear].  Line 115 divides by the period; for
    [unused_axis] other than 1 and 2 the
    variables of the return statement are not assigned. *)
Definition oscillatory_shear (amplitude period frameno timestep phase : R) (centre : vec)
    (num_spheres : nat) (unused_axis : nat) (transpose_shear opposite_direction : bool) : res shear :=
  let angular_frequency := 2 * PI / period in
  let t := frameno * timestep in
  let gamma := amplitude * sin (t * angular_frequency + phase) in
  let gammadot := (amplitude * angular_frequency) * cos (t * angular_frequency + phase) in
  let transpose_minus := if transpose_shear then -1 else 1 in
  let opposite_minus := if opposite_direction then -1 else 1 in
  if Reqb period 0 then Raise ZeroDivisionError else
  match unused_axis with
  | 1%nat => Ok (mkShear (repeat (literal_xz (5 / 10 * gammadot)) (Nat.max 1 num_spheres))
               (v3 0 0 0) (v3 0 (transpose_minus * (5 / 10) * gammadot) 0) centre
               (v3 0 (transpose_minus * (5 / 10) * gamma) 0) (literal_xz (5 / 10 * gamma)))
  | 2%nat => Ok (mkShear (repeat (literal_xy (opposite_minus * (5 / 10) * gammadot)) (Nat.max 1 num_spheres))
               (v3 0 0 0) (v3 0 0 (opposite_minus * transpose_minus * (- (5 / 10)) * gammadot)) centre
               (v3 0 0 (opposite_minus * transpose_minus * (- (5 / 10)) * gamma))
               (literal_xy (opposite_minus * (5 / 10) * gamma)))
  | _ => Raise UnboundLocalError
  end.
