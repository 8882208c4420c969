(** Model of what [randomise_dumbbells_periodic] prints when it is done.
    Source: setups/functions_positions.py 294-326.  Simplified as in Model_Report. *)
From Coq Require Import Reals List Arith Bool.
From Verif Require Import Base Py Model_Mob Model_Close Model_Place Model_PlaceP Model_Report.
Import ListNotations.
Local Open Scope R_scope.

(** 301-305: the mean of arccos |deltax . (1, 0, 0)| / |deltax|, in degrees *)
Definition pitch (deltax : vec) : R := acos (Rabs (deltax 0%nat / norm deltax * 1 + deltax 1%nat / norm deltax * 0 + deltax 2%nat / norm deltax * 0)) * 180 / PI.
Definition mean_pitch (dumbbell_deltax : list vec) : R := np_sum (map pitch dumbbell_deltax) / INR (length dumbbell_deltax).

(** 294-324: 294-300 are 153-159 and 307-324 are 161-177 once more *)
Definition report_periodic (lo hi : vec) (sizes : list R) (ds : list (vec * vec)) : res (report * R) :=
  do r <- report_dumbbells lo hi sizes ds ;; Ok (r, mean_pitch (map snd ds)).
(** 192-326 *)
Definition randomise_dumbbells_periodic_said (lo hi : vec) (rand : nat -> R) (dx : R) (theta phi : angle) (fuel k : nat) (sizes : list R) (current : list (R * vec))
  : option (res (list (vec * vec * bool) * nat * (report * R))) :=
  match places_periodic rand lo hi dx theta phi fuel k sizes current [] with
  | None => None
  | Some (ds, k') => Some (do r <- report_periodic lo hi sizes (map fst ds) ;; Ok (ds, k', r))
  end.
