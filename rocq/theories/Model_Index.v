(** Model of the slices of pairs of particles, of the description of the layout
    that goes with a list of positions, and of the time in the headings of the
    tables of resistance scalars.
    Source: stokesian_dynamics/functions/shared.py 103-145 and 192-218,
    find_resistance_scalars/functions_general.py 55-59. *)
From Coq Require Import Reals ZArith Arith List String Ascii.
From Verif Require Import Base Model_Minf Model_Progress.
Import ListNotations.

(** [np.s_[a:b]]: first index, and first index no longer in the slice. *)
Definition range := (Z * Z)%type.

(** shared.py 103-145 [submatrix_coords], in the order of the returned tuple. *)
Definition submatrix_coords (a1 a2 Ns Nd : Z) : list (range * range) :=
  (let R1 := (a1 * 3, (a1 + 1) * 3) in
   let R2 := (3 * Ns + a1 * 3, 3 * Ns + (a1 + 1) * 3) in
   let R3 := (6 * Ns + a1 * 5, 6 * Ns + (a1 + 1) * 5) in
   let C1 := (a2 * 3, (a2 + 1) * 3) in
   let C2 := (3 * Ns + a2 * 3, 3 * Ns + (a2 + 1) * 3) in
   let C3 := (6 * Ns + a2 * 5, 6 * Ns + (a2 + 1) * 5) in
   let a1_d := a1 - Ns in
   let a2_d := a2 - Ns in
   let R4 := (11 * Ns + a1_d * 3, 11 * Ns + (a1_d + 1) * 3) in
   let C4 := (11 * Ns + a2_d * 3, 11 * Ns + (a2_d + 1) * 3) in
   let a1_d2 := a1 - Ns - Nd in
   let a2_d2 := a2 - Ns - Nd in
   let R5 := (11 * Ns + 3 * Nd + a1_d2 * 3, 11 * Ns + 3 * Nd + (a1_d2 + 1) * 3) in
   let C5 := (11 * Ns + 3 * Nd + a2_d2 * 3, 11 * Ns + 3 * Nd + (a2_d2 + 1) * 3) in
   [(R1, C1); (R1, C2); (C1, R2); (R1, C3); (C1, R3);
    (R2, C2); (R2, C3); (C2, R3); (R3, C3);
    (R1, C4); (R2, C4); (R3, C4); (R4, C4);
    (R1, C5); (R2, C5); (R3, C5); (R4, C5); (R5, C5)])%Z.

(** shared.py 192-218 [posdata_data]: what it adds to the positions and sizes
    themselves.  Sphere rotations pass through. *)
Record described := mkDescribed {
  element_sizes : nat -> R; element_positions : nat -> vec; element_deltax : nat -> vec;
  num_elements : nat; num_elements_array : list nat; element_type : list nat;
  uv_start : list nat; uv_size : list nat; element_start_count : list nat }.

Definition posdata_data (p : posdata) : described :=
  let Ns := num_spheres p in
  let Nd := num_dumbbells p in
  mkDescribed
    (fun e => if Nat.ltb e Ns then sphere_sizes p e else dumbbell_sizes p (e - Ns))
    (fun e => if Nat.ltb e Ns then sphere_positions p e else dumbbell_positions p (e - Ns))
    (fun e => if Nat.ltb e Ns then v3 0 0 0 else dumbbell_deltax p (e - Ns))
    (Ns + Nd) [Ns; Nd] [0; 0; 0; 1; 1]
    [0; 3 * Ns; 6 * Ns; 11 * Ns; 11 * Ns + 3 * Nd] [3; 3; 5; 3; 3] [0; 0; 0; Ns; Ns].

(** functions_general.py 55-59 [format_seconds]. *)
Definition format_seconds (t : R) : string :=
  let '(m, s) := divmod t 60 in
  let '(h, m) := divmod m 60 in
  (decimal (shown h) ++ "h" ++ align "0" 2 (decimal (shown m)) ++ "m" ++ align "0" 2 (decimal (shown s)) ++ "s")%string.
