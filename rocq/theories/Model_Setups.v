(** Model of the example setups.
    Source: setups/positions.py 21-182 [pos_setup], setups/tests/positions.py
            [pos_setup_tests], functions/shared.py 293-315 [same_setup_as].

    The random numbers are a stream and a [while True] loop gets [fuel]
    iterations, as in Model_Place ([None]: they did not suffice).  The file read
    by setup 8 is an argument and exists.  The description is omitted.  The two
    orientation points of every sphere are those of
    [add_sphere_rotations_to_positions] with the x and z axes, in every setup. *)
From Coq Require Import Reals List Arith ZArith Bool.
From Verif Require Import Base Py Model_Place Model_Frame Model_Inputs.
Import ListNotations.
Local Open Scope R_scope.

Record setup := mkSetup { u_ss : list R; u_sp : list vec; u_ds : list R; u_dp : list vec; u_dx : list vec }.
Definition spheres_only (ss : list R) (sp : list vec) : setup := mkSetup ss sp [] [] [].

(** The tuple [posdata]. *)
Definition axes_xz (j : nat) : vec := match j with O => v3 1 0 0 | _ => v3 0 0 1 end.
Definition config_of (u : setup) : config :=
  let spos := fun i => nth i (u_sp u) (v3 0 0 0) in
  let ss := fun i => nth i (u_ss u) 0 in
  mkConfig ss spos (add_sphere_rotations spos ss axes_xz)
    (fun i => nth i (u_ds u) 0) (fun i => nth i (u_dp u) (v3 0 0 0)) (fun i => nth i (u_dx u) (v3 0 0 0)).

(** tests/positions.py 20-66 *)
Definition pos_setup_tests (n : Z) : res setup :=
  match n with
  | (-1)%Z => let s := 21 / 10 / (1 + 1) * 2 in Ok (spheres_only [1; 1] [v3 (- s / 2) 0 0; v3 (s / 2) 0 0])
  | (-2)%Z => Ok (spheres_only [1; 1] [v3 0 0 0; v3 (39 / 10) 0 0])
  | (-3)%Z => Ok (spheres_only [1; 1 / 10] [v3 0 0 0; v3 (1155 / 1000) 0 0])
  | (-4)%Z => Ok (spheres_only [1; 1 / 10] [v3 0 0 0; v3 (2145 / 1000) 0 0])
  | (-5)%Z => Ok (spheres_only [1 / 10; 1] [v3 0 0 0; v3 (1155 / 1000) 0 0])
  | (-6)%Z => Ok (spheres_only [1 / 10; 1] [v3 0 0 0; v3 (2145 / 1000) 0 0])
  | (-7)%Z => Ok (spheres_only [1 / 10; 1 / 10] [v3 0 0 0; v3 (21 / 100) 0 0])
  | (-8)%Z => Ok (spheres_only [1 / 10; 1 / 10] [v3 0 0 0; v3 (39 / 100) 0 0])
  | _ => Raise SystemExit
  end.

(** shared.py 293-315.  The arrays 'centres' and 'deltax' of the file, with the
    numbers of spheres and dumbbells in their shapes. *)
Record saved_file := mkSaved { w_Ns : nat; w_Nd : nat; w_frames : list snapshot }.
Definition same_setup_as (file : saved_file) (frameno : Z) (sphere_size dumbbell_size : R) : res setup :=
  let n := Z.of_nat (length (w_frames file)) in
  let k := if (frameno <? 0)%Z then (n + frameno)%Z else frameno in
  match (if (k <? 0)%Z then None else nth_error (w_frames file) (Z.to_nat k)) with
  | None => Raise IndexError
  | Some s =>
      Ok (mkSetup (repeat sphere_size (w_Ns file)) (map (n_pos s) (seq 0 (w_Ns file)))
            (repeat dumbbell_size (w_Nd file)) (map (n_pos s) (seq (w_Ns file) (w_Nd file))) (map (n_dx s) (seq 0 (w_Nd file))))
  end.

(** positions.py 121-126, 149-154: a wall of 45 spheres at height [z]. *)
Definition wall (z : R) : list vec :=
  let sep := 200001 / 100000 in
  map (fun i => v3 (sep * INR i - 22 * sep) 0 z) (seq 0 45).

(** positions.py 21-182 *)
Definition pos_setup (rand : nat -> R) (fuel : nat) (file : saved_file) (n : Z) : option (res setup) :=
  if (n <? 0)%Z then Some (pos_setup_tests n)
  else match n with
  | 1%Z => Some (Ok (spheres_only (repeat 1 15) (map (fun i => v3 (4 * INR i) 0 0) (seq 0 15))))
  | 2%Z => Some (Ok (spheres_only [1; 1; 1] [v3 (- (5)) 0 0; v3 0 0 0; v3 7 0 0]))
  | 3%Z => let '(sp, _, _) := simple_cubic_8 8 in Some (Ok (spheres_only (repeat 1 8) sp))
  | 4%Z => Some (Ok (mkSetup [1; 1] [v3 0 0 0; v3 (45 / 10) 0 (45 / 10)] [1 / 10; 1 / 10]
                       [v3 (45 / 10) 0 0; v3 0 0 (45 / 10)] [v3 (sqrt 2) 0 (sqrt 2); v3 (sqrt 2) 0 (sqrt 2)]))
  | 5%Z =>
      let L := 162 / 10 in
      match randomise_spheres rand (v3 (- L / 2 + 1) 0 (- L / 2 + 1)) (v3 (L / 2 - 1) 0 (L / 2 - 1)) fuel 0 (repeat 1 41) [] with
      | None => None
      | Some r => Some (do (ps, _) <- r ;; Ok (spheres_only (repeat 1 41) ps))
      end
  | 6%Z =>
      match randomise_dumbbells rand (v3 (- (17)) 0 (1 + 2 * (1 / 10))) (v3 17 0 (10 - 2 * (1 / 10))) 2 Random (Fixed 0)
              fuel 0 (repeat (1 / 10) (100 * 2)) [] with
      | None => None
      | Some r => Some (do (ds, _) <- r ;;
          Ok (mkSetup (repeat 1 (45 * 2)) (wall 0 ++ wall 11) (repeat (1 / 10) (100 * 2)) (map fst ds) (map snd ds)))
      end
  | 7%Z =>
      let middle := flat_map (fun i => map (fun j => v3 i 0 j) [- (25 / 10); 0; 25 / 10]) [- (4); 0; 4] in
      Some (Ok (spheres_only (repeat 1 (45 * 2 + 9)) ((wall (- (5)) ++ wall 5) ++ middle)))
  | 8%Z => Some (same_setup_as file 0 1 (1 / 10))
  | _ => Some (Raise SystemExit)
  end.
