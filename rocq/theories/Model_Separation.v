(** Model of the check of separations, switched off in run_simulation.py 198-206.
    Source: stokesian_dynamics/functions/timestepping.py 187-232.  The printed
    texts are omitted; the tables printed are kept. *)
From Coq Require Import Reals Arith Bool List.
From Verif Require Import Base Model_Mob Model_Minf.
Import ListNotations.
Local Open Scope R_scope.

(** 199-202 [sphere_and_bead_positions]: spheres, then centres plus half the
    extension, then centres minus half the extension. *)
Definition separation_positions (p : posdata) (b : nat) : vec :=
  if Nat.ltb b (num_spheres p) then sphere_positions p b
  else if Nat.ltb b (num_spheres p + num_dumbbells p) then
    let d := (b - num_spheres p)%nat in
    vadd (dumbbell_positions p d) (vscal (1 / 2) (dumbbell_deltax p d))
  else
    let d := (b - num_spheres p - num_dumbbells p)%nat in
    vsub (dumbbell_positions p d) (vscal (1 / 2) (dumbbell_deltax p d)).
(** 203-204 [sphere_and_bead_sizes] *)
Definition separation_sizes (p : posdata) (b : nat) : R :=
  if Nat.ltb b (num_spheres p) then sphere_sizes p b
  else if Nat.ltb b (num_spheres p + num_dumbbells p) then dumbbell_sizes p (b - num_spheres p)
  else dumbbell_sizes p (b - num_spheres p - num_dumbbells p).

(** 206-209: broadcasting makes entry (i, j) of the first table the length of
    row j minus row i. *)
Definition distance_matrix (p : posdata) : mat := fun i j =>
  norm (vsub (separation_positions p j) (separation_positions p i)).
Definition average_size (p : posdata) : mat := fun i j => 5 / 10 * (separation_sizes p j + separation_sizes p i).
Definition distance_over_average_size (p : posdata) : mat := fun i j => distance_matrix p i j / average_size p i j.

(** 187-227: the tables of separations printed, if any, and the flag returned. *)
Definition are_some_of_the_particles_too_close (error : bool) (printout : nat) (p : posdata) : option (mat * mat) * bool :=
  (if Nat.ltb 0 printout then Some (distance_matrix p, distance_over_average_size p) else None, error).
