(** What forces and torques on spheres and the forces on the beads of dumbbells
    do to all of them, and runs of both. *)
From Coq Require Import Reals Arith Bool List.
From Verif Require Import Base Py Model_Mob Model_Step Model_Output Model_Frame Model_Inputs Model_Sim
  Spec_Minf Spec_Step Spec_Frame Spec_Run Spec_Push.
Local Open Scope R_scope.

(** The spheres, the first beads and the second beads of the dumbbells. *)
Definition beads_of (Ns Nd : nat) (q : config) (b : nat) : vec :=
  if Nat.ltb b Ns then c_spos q b
  else if Nat.ltb b (Ns + Nd) then bead_minus (c_dpos q (b - Ns)) (c_ddx q (b - Ns))
  else bead_plus (c_dpos q (b - Ns - Nd)) (c_ddx q (b - Ns - Nd)).
Definition radii_of (Ns Nd : nat) (q : config) (b : nat) : R :=
  if Nat.ltb b Ns then c_ssizes q b
  else if Nat.ltb b (Ns + Nd) then c_dsizes q (b - Ns) else c_dsizes q (b - Ns - Nd).

(** Forces on them: that on a dumbbell is the sum of the forces on its beads, and
    [D] that on the second bead less that on the first.  No torques on beads. *)
Definition bead_force (Ns Nd : nat) (F B D : nat -> vec) (b : nat) : vec := fun l =>
  if Nat.ltb b Ns then F b l
  else if Nat.ltb b (Ns + Nd) then (B (b - Ns)%nat l - D (b - Ns)%nat l) / 2
  else (B (b - Ns - Nd)%nat l + D (b - Ns - Nd)%nat l) / 2.
Definition bead_torque (Ns : nat) (T : nat -> vec) (b : nat) : vec := fun l => if Nat.ltb b Ns then T b l else 0.

Section Tow.
Variable bb : bool.
Variable mu : R.
Variables (Ns n : nat) (x : nat -> vec) (a : nat -> R) (F T : nat -> vec).
(** Without bead-bead interactions beads feel themselves and spheres only. *)
Definition felt (i j : nat) : bool := (negb (Nat.eqb i j) && (bb || Nat.ltb i Ns || Nat.ltb j Ns))%bool.
Definition towed_velocity (i : nat) : vec := fun l =>
  F i l / (6 * PI * mu * a i) + rsum n (fun j => if felt i j then swept mu (x i) (x j) (a i) (a j) (F j) (T j) l else 0).
Definition towed_spin (i : nat) : vec := fun l =>
  T i l / (8 * PI * mu * a i ^ 3) + rsum n (fun j => if felt i j then swirled mu (x i) (x j) (a i) (a j) (F j) (T j) l else 0).
Definition towed_strain (i : nat) : mat := fun k l =>
  rsum n (fun j => if felt i j then strained mu (x i) (x j) (a i) (a j) (F j) (T j) k l else 0).
End Tow.

(** Frame [m] of the trajectory [pos]: speeds [V] of the spheres, speeds [C] of
    the centres of the dumbbells, and rates [D] at which the vectors from first
    to second bead change.  In place of the rate of strain of the fluid, the
    background flow has that of the sphere, and at dumbbells that of sphere 0. *)
Definition towed_frame (bb : bool) (Ns Nd : nat) (g : settings) (pos : nat -> config) (inp : nat -> inputs) (fl : nat -> flow)
    (m : nat) (V C D : nat -> vec) : Prop :=
  exists k, latest_due 0 (g_invert_every g) m k /\
    let x := beads_of Ns Nd (pos k) in
    let a := radii_of Ns Nd (pos k) in
    let F := bead_force Ns Nd (load (i_Fa (inp m))) (load (i_Fb (inp m))) (load (i_DFb (inp m))) in
    let T := bead_torque Ns (load (i_Ta (inp m))) in
    let v := towed_velocity bb (f_mu (fl k)) Ns (Ns + 2 * Nd) x a F T in
    let E := towed_strain bb (f_mu (fl k)) Ns (Ns + 2 * Nd) x a F T in
    let background := fun s y => linear_flow (f_U (fl m)) (f_O (fl m)) (E s) (f_centre (fl m)) y in
    (forall j l, (j < Ns)%nat -> (l < 3)%nat ->
       V j l = if (g_fully_2d g && Nat.eqb l 1)%bool then 0 else v j l + background j (c_spos (pos m) j) l) /\
    (forall j l, (j < Nd)%nat -> (l < 3)%nat ->
       let first := fun l => v (Ns + j)%nat l + background 0%nat (beads_of Ns Nd (pos m) (Ns + j)) l in
       let second := fun l => v (Ns + Nd + j)%nat l + background 0%nat (beads_of Ns Nd (pos m) (Ns + Nd + j)) l in
       C j l = (first l + second l) / 2 /\ D j l = second l - first l).
