(** Time stepping formulas, and flows without a background. *)
From Coq Require Import Reals List Arith.
From Verif Require Import Base Py Model_Frame.
Import ListNotations.
Local Open Scope R_scope.

(** A solution with no background flow. *)
Definition still (s : solution) : Prop :=
  (forall l, (l < 3)%nat -> o_Uinf s l = 0) /\ (forall l, (l < 3)%nat -> o_Oinf s l = 0) /\
  (forall E, In E (o_Ea s) -> forall k l, (k < 3)%nat -> (l < 3)%nat -> E k l = 0).

(** Displacement per timestep over frame [f] (time [f] to [f+1], measured in
    frames) of each scheme for a velocity [v] depending on time only; [start]
    is the first frame of the run. *)
Definition increment (sch : scheme) (start : nat) (v : R -> R) (f : nat) : R :=
  match sch with
  | euler => v (INR f)
  | ab2 => if Nat.eqb f start then v (INR f) else 3 / 2 * v (INR f) - 1 / 2 * v (INR f - 1)
  | _ => (v (INR f) + 4 * v (INR f + 1 / 2) + v (INR f + 1)) / 6
  end.

(** A cubic and its antiderivative. *)
Definition cubic (a b c d : R) (t : R) : R := a + b * t + c * t ^ 2 + d * t ^ 3.
Definition antiderivative (a b c d : R) (t : R) : R := a * t + b * t ^ 2 / 2 + c * t ^ 3 / 3 + d * t ^ 4 / 4.

(** The classical fourth-order Runge-Kutta step for dx/dt = v(x). *)
Definition classical_rk4 (v : vec -> vec) (x : vec) (dt : R) : vec :=
  let k1 := v x in
  let k2 := v (fun l => x l + dt / 2 * k1 l) in
  let k3 := v (fun l => x l + dt / 2 * k2 l) in
  let k4 := v (fun l => x l + dt * k3 l) in
  fun l => x l + dt / 6 * (k1 l + 2 * k2 l + 2 * k3 l + k4 l).

(** The same settings with another scheme. *)
Definition with_scheme (g : settings) (sch : scheme) : settings :=
  mkSettings sch (g_dt g) (g_num_frames g) (g_start g) (g_invert_every g) (g_use_drag g) (g_rk4_each g)
    (g_fully_2d g) (g_explosion g) (g_box_bl g) (g_box_tr g) (g_save_pos g) (g_save_forces g) (g_save_after g)
    (g_temp g) (g_temp_every g).

(** The same settings for a run starting at frame [n]. *)
Definition restarted (g : settings) (n : nat) : settings :=
  mkSettings (g_scheme g) (g_dt g) (g_num_frames g) n (g_invert_every g) (g_use_drag g) (g_rk4_each g)
    (g_fully_2d g) (g_explosion g) (g_box_bl g) (g_box_tr g) (g_save_pos g) (g_save_forces g) (g_save_after g)
    (g_temp g) (g_temp_every g).
