(** Model of the grand resistance matrix for a non-periodic domain, far-field
    part.
    Source: stokesian_dynamics/functions/generate_grand_resistance_matrix.py
    41-70.  Timing and printing are omitted. *)
From Coq Require Import Reals Arith Bool List.
From Verif Require Import Base Model_Minf.
Local Open Scope R_scope.

(** 63-68: [mu*np.diag([...] + [...] + [...] + [...] + [...])].  The position in
    the concatenated list selects the segment. *)
Definition drag_Minfinity_inverse (p : posdata) (mu : R) : mat :=
  let Ns := num_spheres p in
  let Nd := num_dumbbells p in
  let entry := fun i =>
    if Nat.ltb i (3 * Ns) then sphere_sizes p (i / 3)
    else if Nat.ltb i (6 * Ns) then 1 / (3 / 4) * sphere_sizes p ((i - 3 * Ns) / 3) ^ 3
    else if Nat.ltb i (11 * Ns) then 1 / (9 / 10) * sphere_sizes p ((i - 6 * Ns) / 5) ^ 3
    else if Nat.ltb i (11 * Ns + 3 * Nd) then 2 * dumbbell_sizes p ((i - 11 * Ns) / 3)
    else 2 * dumbbell_sizes p ((i - 11 * Ns - 3 * Nd) / 3) in
  fun i j => mu * (if Nat.eqb i j then entry i else 0).

(** 41-70: the matrix called Minfinity_inverse. [inv] is [np.linalg.inv]. *)
Definition Minfinity_inverse (inv : nat -> mat -> mat) (bb : bool) (p : posdata) (mu : R)
    (use_drag regenerate : bool) (last : mat) : mat :=
  if use_drag then drag_Minfinity_inverse p mu
  else if regenerate then
    inv (11 * num_spheres p + 6 * num_dumbbells p)%nat (generate_Minfinity bb p mu)
  else last.
