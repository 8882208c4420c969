(** Model of the feeding of particles from below.
    Source: functions/shared.py 318-424 [feed_particles_from_bottom] (its call in
    run_simulation.py 172-179 is commented out).
    [posdata] is a [setup]; the orientation points of the spheres are handed
    through and omitted.  The file is an argument and exists.  [argsort] leaves
    the order of equal heights open; here it is that of the list.  Not modelled:
    what is printed, except that the printed minimum may raise. *)
From Coq Require Import Reals List Arith ZArith Bool.
From Verif Require Import Base Py Model_Mob Model_Close Model_Frame Model_Setups.
Import ListNotations.
Local Open Scope R_scope.

Definition height (p : vec) : R := p 2%nat.
(** [np.max], [np.min] of the heights; [None] raises ValueError *)
Definition np_max (l : list R) : option R := match l with [] => None | x :: r => Some (fold_left Rmax r x) end.
Definition np_min (l : list R) : option R := match l with [] => None | x :: r => Some (fold_left Rmin r x) end.
Definition raising {A} (e : exn) (x : option A) : res A := match x with Some a => Ok a | None => Raise e end.

(** 338-340 and 366-368 *)
Definition beads_of (u : setup) : list vec :=
  map (fun p => vadd (fst p) (vscal (1 / 2) (snd p))) (combine (u_dp u) (u_dx u))
  ++ map (fun p => vsub (fst p) (vscal (1 / 2) (snd p))) (combine (u_dp u) (u_dx u)).

(** 370: sorted by height *)
Fixpoint insert_height (p : vec) (l : list vec) : list vec :=
  match l with [] => [p] | q :: r => if Rleb (height p) (height q) then p :: l else q :: insert_height p r end.
Definition sort_height (l : list vec) : list vec := fold_right insert_height [] l.

(** 386-391 *)
Definition hits (s : vec) (keep : list vec) (a : R) : bool := existsb (fun t => Rleb (norm (vsub s t)) (2 * a)) keep.

(** 336-413: [new_bead_positions] *)
Definition new_bead_positions (u : setup) (file : saved_file) (reference_particle : nat) : res (list vec) :=
  let num_beads_before := (2 * length (u_ds u))%nat in
  let beads := beads_of u in
  do ref <- raising IndexError (nth_error (u_sp u) reference_particle) ;;
  do top <- raising ValueError (np_max (map (fun p => height p - height ref) beads)) ;;
  do low <- raising ValueError (np_min (map (fun p => height p - height ref) beads)) ;;
  let bottom := - low in
  let needed := 1 / 2 * (top - bottom) in
  let level := height ref + bottom + needed in
  let keep := filter (fun p => Rleb (height p) level) beads in
  let deleted := (num_beads_before - length keep)%nat in
  do ss0 <- raising IndexError (nth_error (u_ss u) 0) ;;
  do ds0 <- raising IndexError (nth_error (u_ds u) 0) ;;
  do block <- same_setup_as file 0 ss0 ds0 ;;
  let to_add := firstn deleted (sort_height (beads_of block)) in
  do top_new <- raising ValueError (np_max (map height to_add)) ;;
  do min_old <- raising ValueError (np_min (map height beads)) ;;
  let shifted := map (fun p => vsub p (v3 0 0 (top_new - min_old))) to_add in
  do _ <- raising ValueError (np_min (map height keep)) ;;
  let really := filter (fun s => negb (hits s keep ds0)) shifted in
  let new := keep ++ really in
  let new := if Nat.ltb num_beads_before (length new) then firstn num_beads_before new else new in
  Ok (if Nat.ltb (length new) num_beads_before
      then new ++ firstn (num_beads_before - length new) (filter (fun p => negb (Rleb (height p) level)) beads)
      else new).

(** 318-424.  417: the index [shape[0]/2] of the slice is a float. *)
Definition feed_particles_from_bottom (u : setup) (feed_every_n_timesteps : nat) (file : saved_file) (frameno reference_particle : nat) : res setup :=
  if Nat.eqb feed_every_n_timesteps 0 || negb (Nat.eqb (frameno mod feed_every_n_timesteps) 0) || Nat.eqb frameno 0
  then Ok u
  else do new <- new_bead_positions u file reference_particle ;; Raise TypeError.
