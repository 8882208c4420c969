(** tests/test_all.py: the comparison of two-sphere problems with a file of
    results of another program ("Lamb's solution").

    Printed messages are omitted.  The lines of the file after the header are
    given as lists of numbers, without the four leading columns (radii,
    separation and name of the test, which are only printed); a line with fewer
    columns than that is [None].  Numbers that do not parse are not modelled. *)
From Coq Require Import Reals List Arith ZArith Bool.
From Verif Require Import Py Base Model_Pack Model_Mob Model_Minf Model_Grand Model_GrandP Model_Output Model_Inputs Model_Frame
  Model_Setups Model_Sim Model_Lamb.
Import ListNotations.
Local Open Scope R_scope.

(** test_all.py 36, 42, 48: [np.isclose(x, y, rtol=1e-3)]; absolute tolerance
    1e-8, relative to the second argument. *)
Definition isclose3 (x y : R) : bool :=
  if Rle_dec (Rabs (x - y)) (/ 10 ^ 8 + / 10 ^ 3 * Rabs y) then true else false.

(** [np.all(np.isclose(l, m, rtol=1e-3))]: one number is compared with each of
    the others; other unequal lengths do not broadcast. *)
Definition all_close (l m : list R) : res bool :=
  if Nat.eqb (length l) (length m) then Ok (forallb (fun t => isclose3 (fst t) (snd t)) (combine l m))
  else match l, m with
       | [x], _ => Ok (forallb (isclose3 x) m)
       | _, [y] => Ok (forallb (fun x => isclose3 x y) l)
       | _, _ => Raise ValueError
       end.

(** 34-57 [uos_compare]: the number of groups (velocities, angular velocities,
    stresslets) that differ.  54: the reshape when the stresslets differ. *)
Definition uos_compare (line : list R) (Ua Oa : list (list R)) (Sa : list (list (list R))) : res nat :=
  do u <- all_close (lslice line 0 6) (concat Ua) ;;
  do o <- all_close (lslice line 6 12) (concat Oa) ;;
  do c <- condense Sa 2 ;;
  do s <- all_close (lslice line 12 22) (concat c) ;;
  if s then Ok ((if u then 0 else 1) + (if o then 0 else 1))%nat
  else if Nat.eqb (length (lslice line 12 22)) 10 then Ok ((if u then 0 else 1) + (if o then 0 else 1) + 1)%nat
  else Raise ValueError.

Section Test.
Variable inv : nat -> mat -> mat.
Variable solve : nat -> mat -> list R -> list R.
Variable sc : nat -> nat -> R -> nat -> R.
Variable table : list R.
Variable bb : bool.
Variables cutoff_factor timestep : R.
Variable verbose : bool.                         (* settings.printout > 0 *)

(** 10-31 [fte_mobility_solve_nonperiodic], through timestepping.py 257-306 and
    the 'fte' branch (Model_Output).  None of the inputs used sets a box. *)
Definition fte_mobility_solve_nonperiodic (setup_number input_number : Z)
    : res (list (list R) * list (list R) * list (list (list R))) :=
  do u <- pos_setup_tests setup_number ;;
  let Ns := length (u_ss u) in
  let Nd := length (u_ds u) in
  let p := config_of u in
  do (i, f) <- input_ftsuoe input_number fte Ns Nd p 0 timestep ;;
  do (G, _) <- grand_resistance_free inv sc table bb (posdata_of Ns Nd p) no_matrix true cutoff_factor verbose false false (f_mu f) ;;
  do o <- generate_output inv solve Ns Nd fte false G i (fun _ => i) ;;
  Ok (Model_Output.o_Ua o, Model_Output.o_Oa o, Model_Output.o_Sa o).

(** 66-79: the loop over the lines, from number [i] on. *)
Fixpoint count_wrong (i : nat) (rows : list (option (list R))) : res nat :=
  match rows with
  | [] => Ok 0%nat
  | row :: rest =>
      if Nat.ltb (i / 11) 8 then
        do (uo, s) <- fte_mobility_solve_nonperiodic (setup_of_row i) (input_of_row i) ;;
        match row with
        | None => Raise IndexError
        | Some line =>
            do w <- uos_compare line (fst uo) (snd uo) s ;;
            do n <- count_wrong (S i) rest ;;
            Ok (w + n)%nat
        end
      else Raise IndexError
  end.

(** 60-81 [test_against_lamb]; [Ok false] stands for the failed assertion. *)
Definition test_against_lamb (rows : list (option (list R))) : res bool :=
  do n <- count_wrong 0 rows ;; Ok (Nat.eqb n 0).
End Test.
