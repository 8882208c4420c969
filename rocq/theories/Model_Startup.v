(** Model of what happens between reading the positions and the first frame.
    Sources: stokesian_dynamics/run_simulation.py 735-774 and, disabled there
    at 197-208, functions/timestepping.py 156-188. *)
From Coq Require Import Reals List Arith Bool String.
From Verif Require Import Base Py Model_Close Model_R2B Model_Output Model_Frame Model_Inputs Model_Sim.
Import ListNotations.
Local Open Scope R_scope.

(** [x in l] for strings *)
Definition in_names (x : string) (l : list string) : bool := existsb (String.eqb x) l.

(** timestepping.py 266, 312, 327, 359, 406, 473: what the chain of comparisons
    makes of the name of the input form. *)
Definition form_of_name (s : string) : form :=
  if String.eqb s "stokes_drag_dumbbells_only" then stokes_drag_dumbbells_only
  else if String.eqb s "fts" then fts
  else if String.eqb s "fte" then fte
  else if String.eqb s "ufte" then ufte
  else if String.eqb s "ufteu" then ufteu
  else if String.eqb s "duf" then duf
  else other_form.

(** 763-766: [list(set(...))] twice; the order does not matter below. *)
Definition size_ratios (sphere_sizes : list R) : list R :=
  let unique := nodup Req_EM_T sphere_sizes in
  nodup Req_EM_T (flat_map (fun i => map (fun j => i / j) unique) unique).

(** 767-770.  [np.isclose(a, b)] measures against its second argument. *)
Definition ratio_listed (table : list R) (size_ratio : R) : bool := existsb (fun x => isclose size_ratio x) table.

(** 744-770.  [throw_error] is [sys.exit].  The result is whether the warning
    of 751-753 was printed.  [inputs0] is the result of the call of
    [input_ftsuoe] at 755-760. *)
Definition start_up (input_form : string) (num_spheres : nat) (sphere_sizes table : list R) (inputs0 : res (inputs * flow)) : res bool :=
  if (Nat.eqb num_spheres 0 && negb (in_names input_form ["fts"; "duf"; "RPY_dumbbells_only"; "stokes_drag_dumbbells_only"]%string))%bool
  then Raise SystemExit
  else if (Nat.ltb 0 num_spheres && in_names input_form ["duf"; "RPY_dumbbells_only"; "stokes_drag_dumbbells_only"]%string)%bool
  then Raise SystemExit
  else
    let warned := (Nat.ltb 0 num_spheres && in_names input_form ["fts"]%string)%bool in
    do _ <- inputs0 ;;
    if forallb (ratio_listed table) (size_ratios sphere_sizes) then Ok warned else Raise SystemExit.

(** The program from there on.  [input] takes the timestep, the positions and
    the frame number; the call at 755-760 has timestep 0.1 and frame 0. *)
Definition main_program inv inv3 solve sc table h stale Ns Nd input_form extract bb minf_only cutoff_factor (g : settings)
    (input : R -> config -> R -> res (inputs * flow)) (p : config) : res (bool * option (list snapshot * list fsnapshot)) :=
  do warned <- start_up input_form Ns (map (c_ssizes p) (seq 0 Ns)) table (input (1 / 10) p 0) ;;
  do out <- full_simulation inv inv3 solve sc table h stale Ns Nd (form_of_name input_form) extract bb minf_only cutoff_factor g (input (g_dt g)) p ;;
  Ok (warned, out).

(** ** timestepping.py 156-188 [do_we_have_all_size_ratios] *)
(** [x in array], exactly ([np.in1d]) *)
Definition among (l : list R) (x : R) : bool := existsb (fun y => if Req_EM_T x y then true else false) l.
(** 159-164: [np.where] of the entries of [sizes / sizes[:, None]] that are not
    in the list, in row-major order. *)
Definition offending_elements (sizes lam_range : list R) : list (nat * nat) :=
  let all := lam_range ++ map (fun l => 1 / l) lam_range in
  let n := List.length sizes in
  filter (fun ij => negb (among all (nth (snd ij) sizes 0 / nth (fst ij) sizes 0)))
    (flat_map (fun i => map (fun j => (i, j)) (seq 0 n)) (seq 0 n)).
(** 172-176: 'sphere i' or 'dumbbell i - num_spheres' *)
Inductive element_name := sphere_named (k : nat) | dumbbell_named (k : nat).
Definition name_of (num_spheres k : nat) : element_name :=
  if Nat.leb num_spheres k then dumbbell_named (k - num_spheres) else sphere_named k.
(** The new error flag and what is printed: the ratio (167-168) and two names.
    170-176: the names are those of the first two entries of
    [offending_elements[0]], the array of row numbers. *)
Definition do_we_have_all_size_ratios (error : bool) (sizes lam_range : list R) (num_spheres : nat)
  : res (bool * option (R * element_name * element_name)) :=
  match offending_elements sizes lam_range with
  | [] => Ok (error, None)
  | [_] => Raise IndexError
  | (i, j) :: (k, _) :: _ =>
      Ok (true, Some (nth j sizes 0 / nth i sizes 0, name_of num_spheres i, name_of num_spheres k))
  end.
