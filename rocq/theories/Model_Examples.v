(** Model of the scripts of examples/ that analyse saved runs:
      examples/example-a.py 30-50, example-b.py 42-46, example-c.py 37-51.
    Left out: opening the file, labels, legends, axis limits, curves of data
    from papers (but the number of values in example-a.py matters: plt.plot
    refuses lists of different lengths).  Division by zero gives inf or nan in
    numpy, 0 here.  Spheres only (with dumbbells F and U of example (a) have
    different lengths and their quotient usually raises ValueError). *)
From Coq Require Import Reals List ZArith Bool.
From Verif Require Import Base Py Model_Close Model_Grand Model_Output Model_Frame Model_Inputs Model_Sim Model_Setups Model_Video.
Import ListNotations.
Local Open Scope R_scope.

(** example-a.py 37, example-c.py 41: the Euler step reversed, with
    [timestep_size = 1] (lines 34 and 38). *)
Definition example_speeds (s : list snapshot) : res (nat -> vec) :=
  do c1 <- py_row s 1 ;;
  do c0 <- py_row s 0 ;;
  Ok (fun j l => (n_pos c1 j l - n_pos c0 j l) / 1).

(** example-a.py 31-43: F and U are columns 2; [sphere_size = 1]. *)
Definition drag_coefficients (Ns : nat) (s : list snapshot) (fs : list fsnapshot) : res (list R) :=
  do F <- py_row fs 0 ;;
  do U <- example_speeds s ;;
  Ok (map (fun j => n_Fa F j 2%nat / (6 * PI * 1 * U j 2%nat)) (seq 0 Ns)).

(** [plt.plot(x, y)] raises ValueError for lists of different lengths. *)
Definition plot_xy (xs ys : list R) : res (list (R * R)) :=
  if Nat.eqb (length xs) (length ys) then Ok (combine xs ys) else Raise ValueError.

(** example-a.py 44-50: N = (number_of_particles+1)//2; the values from N-1
    on and the eight values of the paper, both over range(N). *)
Definition durlofsky_data : list R :=
  [5018 / 10000; 5029 / 10000; 5054 / 10000; 5102 / 10000; 5183 / 10000; 5321 / 10000; 5559 / 10000; 6170 / 10000].
Definition example_a (Ns : nat) (s : list snapshot) (fs : list fsnapshot) : res (list (R * R)) :=
  do dc <- drag_coefficients Ns s fs ;;
  let N := Nat.div (Ns + 1) 2 in
  do curve <- plot_xy (map INR (seq 0 N)) (skipn (N - 1) dc) ;;
  do _ <- plot_xy (map INR (seq 0 N)) durlofsky_data ;;
  Ok curve.

(** example-b.py 42-46: one curve for each particle, column 2 against column 0. *)
Definition example_b (Ns : nat) (s : list snapshot) : list (list (R * R)) :=
  map (fun j => map (fun r => (n_pos r j 0%nat, n_pos r j 2%nat)) s) (seq 0 Ns).

(** example-c.py 37-51: the point (phi, sedimentation_speed). *)
Definition example_c (Ns : nat) (s : list snapshot) : res (R * R) :=
  do U <- example_speeds s ;;
  if Nat.ltb Ns 1 then Raise IndexError else
  let sedimentation_speed := - U 0%nat 2%nat * 6 * PI in
  do c0 <- py_row s 0 ;;
  if Nat.ltb Ns 2 then Raise IndexError else
  let side_length := 2 * (n_pos c0 1%nat 2%nat - n_pos c0 0%nat 2%nat) in
  Ok (8 * 4 / 3 * PI / side_length ^ 3, sedimentation_speed).

(** Example (c) tells its user to change the argument of [simple_cubic_8] in
    setup 3 (positions.py 66-83) and input 2 (inputs.py 120-126); [s] is that
    argument, 8 as shipped. *)
Definition cubic_setup (s : R) : config :=
  let '(sp, _, _) := simple_cubic_8 s in config_of (spheres_only (repeat 1 8) sp).
Definition cubic_input (s : R) (fm : form) (Ns Nd : nat) : res (inputs * flow) :=
  let '(_, bl, tr) := simple_cubic_8 s in
  Ok (with_Fa (default_inputs fm Ns Nd) (repeat (Some [0; 0; - (1)]) Ns),
      mkFlow (v3 0 0 0) (v3 0 0 0) (v3 0 0 0) (v3 0 0 0) mzero bl tr 1).
