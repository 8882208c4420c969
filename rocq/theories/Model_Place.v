(** Model of the random placement of particles.
    Source: setups/functions_positions.py 12-26, 29-84, 87-179.
    The random numbers are a stream [rand]; the state of the generator is the
    number of values drawn so far.  A [while True] loop gets [fuel] iterations;
    [None] means that they did not suffice.  The current spheres are a list of
    (size, position), so the two arrays have the same length.  What is printed
    is in Model_Report. *)
From Coq Require Import Reals List Arith Bool.
From Verif Require Import Base Py Model_Mob Model_Close.
Import ListNotations.
Local Open Scope R_scope.

Section Random.
Variable rand : nat -> R.
Variables random_box_bottom_left random_box_top_right : vec.

(** 12-16 *)
Definition random_point_in_box (k : nat) : vec :=
  fun i => random_box_bottom_left i + rand (k + i)%nat * (random_box_top_right i - random_box_bottom_left i).

(** 19-21 *)
Definition overlaps (pos1 pos2 : vec) (radius1 radius2 : R) : bool :=
  Rltb (norm (vsub pos1 pos2)) (radius1 + radius2).

(** 46-49: [too_close] after the loop over the placed spheres *)
Definition count_close (too_close : nat) (pos : vec) (radius : R) (placed : list (R * vec)) : nat :=
  fold_left (fun c s => if overlaps pos (snd s) radius (fst s) then S c else c) placed too_close.

(** 42-58: returns the position and the state of the generator *)
Fixpoint place_sphere (fuel k : nat) (radius : R) (placed : list (R * vec)) : option (vec * nat) :=
  match fuel with
  | O => None
  | S fuel' =>
    let proposed := random_point_in_box k in
    if Nat.eqb (count_close 0 proposed radius placed) 0 then Some (proposed, k + 3)%nat
    else place_sphere fuel' (k + 3) radius placed
  end.
(** 41-60 *)
Fixpoint place_spheres (fuel k : nat) (sizes : list R) (placed : list (R * vec)) : option (list vec * nat) :=
  match sizes with
  | [] => Some ([], k)
  | r :: rest =>
    match place_sphere fuel k r placed with
    | None => None
    | Some (p, k') =>
      match place_spheres fuel k' rest (placed ++ [(r, p)]) with
      | None => None
      | Some (ps, k'') => Some (p :: ps, k'')
      end
    end
  end.
(** 65-67 (and 155-156): [np.min] of the non-zero distances *)
Definition some_distance (ps : list vec) : bool :=
  existsb (fun p => existsb (fun q => if Req_EM_T (norm (vsub q p)) 0 then false else true) ps) ps.
(** 29-84 *)
Definition randomise_spheres (fuel k : nat) (sizes : list R) (current : list (R * vec)) : option (res (list vec * nat)) :=
  match place_spheres fuel k sizes current with
  | None => None
  | Some (ps, k') => Some (if some_distance ps then Ok (ps, k') else Raise ValueError)
  end.

(** ** Dumbbells *)
(** [theta] and [phi]: the string 'r' or a value *)
Inductive angle := Random | Fixed (x : R).
Definition draw (a : angle) (scale : R) (k : nat) : R * nat :=
  match a with Random => (rand k * scale, S k) | Fixed x => (x, k) end.

Variables (dx : R) (theta phi : angle).

(** 128-129 *)
Definition inside_box (p : vec) : bool :=
  Rleb (random_box_bottom_left 0%nat) (p 0%nat) && Rleb (random_box_bottom_left 1%nat) (p 1%nat) && Rleb (random_box_bottom_left 2%nat) (p 2%nat)
  && (Rleb (p 0%nat) (random_box_top_right 0%nat) && Rleb (p 1%nat) (random_box_top_right 1%nat) && Rleb (p 2%nat) (random_box_top_right 2%nat)).

(** 107-116 and 130-138 *)
Definition count_both (too_close : nat) (pos : vec) (radius : R) (current beads : list (R * vec)) : nat :=
  let c := count_close too_close pos radius current in
  if Nat.eqb c 0 then count_close c pos radius beads else c.

(** 119-143: the tries for the second bead.  [too_close] is not reset. *)
Fixpoint second_bead (tries k too_close : nat) (bead1 : vec) (radius : R) (current beads : list (R * vec)) : option vec * nat :=
  match tries with
  | O => (None, k)
  | S tries' =>
    let '(t, k1) := draw theta (PI * 2) k in
    let '(f, k2) := draw phi PI k1 in
    let bead2 := vadd bead1 (vscal dx (v3 (sin t * cos f) (sin t * sin f) (cos t))) in
    if inside_box bead2 then
      let c := count_both too_close bead2 radius current beads in
      if Nat.eqb c 0 then (Some bead2, k2) else second_bead tries' k2 c bead1 radius current beads
    else second_bead tries' k2 too_close bead1 radius current beads
  end.
(** 104-143 *)
Fixpoint place_dumbbell (fuel k : nat) (radius : R) (current beads : list (R * vec)) : option (vec * vec * nat) :=
  match fuel with
  | O => None
  | S fuel' =>
    let bead1 := random_point_in_box k in
    let too_close := count_both 0 bead1 radius current beads in
    if Nat.eqb too_close 0 then
      match second_bead 100 (k + 3) too_close bead1 radius current beads with
      | (Some bead2, k') => Some (bead1, bead2, k')
      | (None, k') => place_dumbbell fuel' k' radius current beads
      end
    else place_dumbbell fuel' (k + 3) radius current beads
  end.
(** 103-150: the list of (dumbbell position, dumbbell delta x) *)
Fixpoint place_dumbbells (fuel k : nat) (sizes : list R) (current beads : list (R * vec)) : option (list (vec * vec) * nat) :=
  match sizes with
  | [] => Some ([], k)
  | r :: rest =>
    match place_dumbbell fuel k r current beads with
    | None => None
    | Some (b1, b2, k') =>
      match place_dumbbells fuel k' rest current (beads ++ [(r, b1); (r, b2)]) with
      | None => None
      | Some (ds, k'') => Some ((vscal (1 / 2) (vadd b1 b2), vsub b2 b1) :: ds, k'')
      end
    end
  end.
(** 87-179 *)
Definition randomise_dumbbells (fuel k : nat) (sizes : list R) (current : list (R * vec)) : option (res (list (vec * vec) * nat)) :=
  match place_dumbbells fuel k sizes current [] with
  | None => None
  | Some (ds, k') =>
    let beads := map (fun d => vadd (fst d) (vscal (1 / 2) (snd d))) ds
                 ++ map (fun d => vsub (fst d) (vscal (1 / 2) (snd d))) ds in
    Some (if some_distance beads then Ok (ds, k') else Raise ValueError)
  end.
End Random.
