(** Model of stresslet condensation and of packing / unpacking of the grand
    force and velocity vectors.
    Source: stokesian_dynamics/functions/shared.py and
            stokesian_dynamics/functions/simulation_tools.py. *)
From Coq Require Import Reals List Arith Bool.
From Verif Require Import Base Py.
Import ListNotations.
Local Open Scope R_scope.

(** shared.py 14-17.  Square roots are exact here. *)
Definition s3 : R := sqrt 3.
Definition s2 : R := sqrt 2.
Definition hs3p1 : R := (1/2) * (s3 + 1).
Definition hs3m1 : R := (1/2) * (s3 - 1).

(** shared.py 65-80 [contraction].  The decimal literals are replaced by the
    exact values stated in the comments beside them. *)
Definition contraction (i j k : nat) : R :=
  match i, j, k with
  | 0%nat, 0%nat, 0%nat | 2%nat, 1%nat, 1%nat => hs3p1
  | 0%nat, 1%nat, 1%nat | 2%nat, 0%nat, 0%nat => hs3m1
  | 1%nat, 0%nat, 1%nat | 3%nat, 0%nat, 2%nat | 4%nat, 1%nat, 2%nat => s2
  | _, _, _ => 0
  end.

(** [s[i][k][l]]; the default is never reached for well-shaped arrays, see
    [shape33]. *)
Definition get2 (m : list (list R)) (k l : nat) : R := nth l (nth k m []) 0.
Definition shape33 (m : list (list R)) : bool := (Nat.eqb (length m) 3 && rows_ok 3 m)%bool.

(** Body of the loops of simulation_tools.py 57-64, for one tensor and one [j]:
    [sum(sum(contraction(j,k,l)*s[k][l] for k in range(3)) for l in range(3))]. *)
Definition condense_entry (m : list (list R)) (j : nat) : R :=
  rsum 3 (fun l => rsum 3 (fun k => contraction j k l * get2 m k l)).
Definition condense1 (m : list (list R)) : list R := map (condense_entry m) (seq 0 5).

(** simulation_tools.py 52-65 [condense]. IndexError when fewer than
    [num_spheres] tensors are given or one of them is not 3x3. *)
Definition condense (s : list (list (list R))) (num_spheres : nat) : res (list (list R)) :=
  if (Nat.leb num_spheres (length s) && forallb shape33 (firstn num_spheres s))%bool
  then Ok (map (fun i => condense1 (nth i s [])) (seq 0 num_spheres))
  else Raise IndexError.

(** simulation_tools.py 69-78 [condense_and_flatten]: here the accumulation
    order is k outer, l inner, and the result is one flat list. *)
Definition condense_flat_entry (m : list (list R)) (j : nat) : R :=
  rsum 3 (fun k => rsum 3 (fun l => contraction j k l * get2 m k l)).
Definition condense_and_flatten (s : list (list (list R))) (num_spheres : nat) : res (list R) :=
  if (Nat.leb num_spheres (length s) && forallb shape33 (firstn num_spheres s))%bool
  then Ok (flat_map (fun i => map (condense_flat_entry (nth i s [])) (seq 0 5)) (seq 0 num_spheres))
  else Raise IndexError.

(** simulation_tools.py 86-97, one sphere. *)
Definition uncondense1 (c : list R) : list (list R) :=
  let c0 := nth 0 c 0 in let c1 := nth 1 c 0 in let c2 := nth 2 c 0 in
  let c3 := nth 3 c 0 in let c4 := nth 4 c 0 in
  let e00 := (sqrt 3 + 3) / 6 * c0 + (sqrt 3 - 3) / 6 * c2 in
  let e01 := c1 / sqrt 2 in
  let e02 := c3 / sqrt 2 in
  let e10 := e01 in
  let e11 := (sqrt 3 - 3) / 6 * c0 + (sqrt 3 + 3) / 6 * c2 in
  let e12 := c4 / sqrt 2 in
  let e20 := e02 in
  let e21 := e12 in
  let e22 := - e11 - e00 in
  [[e00; e01; e02]; [e10; e11; e12]; [e20; e21; e22]].

(** simulation_tools.py 81-98 [uncondense]. *)
Definition uncondense (c : list (list R)) (num_spheres : nat) : res (list (list (list R))) :=
  if (Nat.leb num_spheres (length c)
      && forallb (fun r => Nat.leb 5 (length r)) (firstn num_spheres c))%bool
  then Ok (map (fun i => uncondense1 (nth i c [])) (seq 0 num_spheres))
  else Raise IndexError.

(** simulation_tools.py 101-134 [construct_force_vector_from_fts].
    [posdata] enters only through the two counts.  In the dumbbell-only branch
    (124-126) [np.array([f, df]).flatten()] is the concatenation of both for
    arrays of equal shape. *)
Definition construct_force_vector_from_fts
    (num_spheres num_dumbbells : nat)
    (f_spheres t_spheres : list (list R)) (s_spheres : list (list (list R)))
    (f_dumbbells deltaf_dumbbells : list (list R)) : res (list R) :=
  do ss <- condense_and_flatten s_spheres num_spheres ;;
  match num_spheres, num_dumbbells with
  | O, O => Ok []
  | S _, O => Ok (concat f_spheres ++ concat t_spheres ++ ss)
  | O, S _ => Ok (concat f_dumbbells ++ concat deltaf_dumbbells)
  | S _, S _ => Ok (concat f_spheres ++ concat t_spheres ++ ss
                    ++ concat f_dumbbells ++ concat deltaf_dumbbells)
  end.

(** simulation_tools.py 137-157 [deconstruct_velocity_vector_for_fts]. *)
Definition deconstruct_velocity_vector_for_fts
    (num_spheres num_dumbbells : nat) (v : list R)
  : res (list (list R) * list (list R) * list (list (list R)) * list (list R) * list (list R)) :=
  let N1 := (3 * num_spheres)%nat in
  let N2 := (6 * num_spheres)%nat in
  let N3 := (11 * num_spheres)%nat in
  let N4 := (11 * num_spheres + 3 * num_dumbbells)%nat in
  let N5 := (11 * num_spheres + 6 * num_dumbbells)%nat in
  do u_spheres <- reshape num_spheres 3 (lslice v 0 N1) ;;
  do o_spheres <- reshape num_spheres 3 (lslice v N1 N2) ;;
  do e_c <- reshape num_spheres 5 (lslice v N2 N3) ;;
  do u_dumbbells <- reshape num_dumbbells 3 (lslice v N3 N4) ;;
  do half_du <- reshape num_dumbbells 3 (lslice v N4 N5) ;;
  do e_spheres <- uncondense e_c num_spheres ;;
  Ok (u_spheres, o_spheres, e_spheres, u_dumbbells, half_du).
