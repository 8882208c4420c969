(** What forces and torques on spheres do to the spheres, each of which disturbs
    the fluid as if alone (Rotne, Prager and Faxen), and the files of a run. *)
From Coq Require Import Reals Arith Bool.
From Verif Require Import Base Model_Mob Spec_Minf.
Local Open Scope R_scope.

(** Unit vector from x2 to x1. *)
Definition heading (x1 x2 : vec) : vec := fun l => (x1 l - x2 l) / norm (vsub x1 x2).

Section Push.
Variable mu : R.
(** A sphere of radius [a1] at [x1] in the disturbance caused by the force [F]
    and the torque [T] on a sphere of radius [a2] at [x2]: velocity, angular
    velocity and rate of strain.  Overlapping spheres are counted as (2.001/2
    times) touching. *)
Definition swept (x1 x2 : vec) (a1 a2 : R) (F T : vec) : vec := fun l =>
  let s := used_separation x1 x2 a1 a2 in let e := heading x1 x2 in
  ((1 + (a1 ^ 2 + a2 ^ 2) / (3 * s ^ 2)) * F l + (1 - (a1 ^ 2 + a2 ^ 2) / s ^ 2) * (dot3 F e * e l)) / (8 * PI * mu * s)
  + cross T e l / (8 * PI * mu * s ^ 2).
Definition swirled (x1 x2 : vec) (a1 a2 : R) (F T : vec) : vec := fun l =>
  let s := used_separation x1 x2 a1 a2 in let e := heading x1 x2 in
  cross F e l / (8 * PI * mu * s ^ 2) + (3 * dot3 T e * e l - T l) / (16 * PI * mu * s ^ 3).
Definition strained (x1 x2 : vec) (a1 a2 : R) (F T : vec) : mat := fun k l =>
  let s := used_separation x1 x2 a1 a2 in let e := heading x1 x2 in
  (dot3 F e * (delta k l - 3 * e k * e l)
   + (a1 ^ 2 / 10 + a2 ^ 2 / 6) / s ^ 2 * (30 * dot3 F e * e k * e l - 6 * (F k * e l + F l * e k + dot3 F e * delta k l)))
    / (8 * PI * mu * s ^ 2)
  - 3 * (e k * cross T e l + e l * cross T e k) / (16 * PI * mu * s ^ 3).

(** All [n] spheres together, with Stokes' drag on each. *)
Variable n : nat.
Variables (x : nat -> vec) (a : nat -> R) (F T : nat -> vec).
Definition pushed_velocity (i : nat) : vec := fun l =>
  F i l / (6 * PI * mu * a i) + rsum n (fun j => if Nat.eqb i j then 0 else swept (x i) (x j) (a i) (a j) (F j) (T j) l).
Definition pushed_spin (i : nat) : vec := fun l =>
  T i l / (8 * PI * mu * a i ^ 3) + rsum n (fun j => if Nat.eqb i j then 0 else swirled (x i) (x j) (a i) (a j) (F j) (T j) l).
Definition pushed_strain (i : nat) : mat := fun k l =>
  rsum n (fun j => if Nat.eqb i j then 0 else strained (x i) (x j) (a i) (a j) (F j) (T j) k l).
End Push.

(** ** Inputs that prescribe forces and torques, and no stresslets *)
From Coq Require Import List.
From Verif Require Import Py Model_Step Model_Output Model_Frame Model_Inputs Model_Sim Spec_Step Spec_Frame Spec_Run.
(** The value prescribed for particle [j]. *)
Definition load (l : list (option (list R))) (j : nat) : vec := fun c =>
  match nth_error l j with Some (Some r) => nth c r 0 | _ => 0 end.
Definition no_stresslet (l : list (option (list (list R)))) : Prop :=
  forall j m a b, nth_error l j = Some (Some m) -> nth b (nth a m nil) 0 = 0.

(** The speeds [V] and spins [W] of the spheres in frame [m] of the trajectory
    [pos]: those of the latest configuration due for inversion, with the
    viscosity it had, under the loads of frame [m].  The background flow has, in
    place of the rate of strain of the fluid, that of the sphere. *)
Definition pushed_frame (Ns : nat) (g : settings) (pos : nat -> config) (inp : nat -> inputs) (fl : nat -> flow)
    (m : nat) (V W : nat -> vec) : Prop :=
  exists k, latest_due 0 (g_invert_every g) m k /\
    let mu := f_mu (fl k) in
    let x := c_spos (pos k) in
    let a := c_ssizes (pos k) in
    let F := load (i_Fa (inp m)) in
    let T := load (i_Ta (inp m)) in
    forall j l, (j < Ns)%nat -> (l < 3)%nat ->
      V j l = (if (g_fully_2d g && Nat.eqb l 1)%bool then 0
               else pushed_velocity mu Ns x a F T j l
                    + linear_flow (f_U (fl m)) (f_O (fl m)) (pushed_strain mu Ns x a F T j) (f_centre (fl m)) (c_spos (pos m) j) l) /\
      W j l = pushed_spin mu Ns x a F T j l + f_O (fl m) l.
