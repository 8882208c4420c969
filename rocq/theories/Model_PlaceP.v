(** Model of the random placement of dumbbells in a periodic box.
    Source: setups/functions_positions.py 24-26, 192-326.
    Conventions as in Model_Place.v.  [from IPython import embed; embed()] (lines
    275-278), which opens an interactive shell in the middle of the placement, is
    recorded: the result tells for each dumbbell whether it happened; the
    variables are taken to be left alone there.  What is printed is in Model_ReportP. *)
From Coq Require Import Reals List Arith Bool.
From Verif Require Import Base Py Model_Mob Model_Close Model_Place.
Import ListNotations.
Local Open Scope R_scope.

(** 24-26 *)
Definition overlaps_periodic (pos1 pos2 : vec) (radius1 radius2 : R) (dxy : vec) : bool :=
  Rltb (norm (vsub (vsub pos1 pos2) dxy)) (radius1 + radius2).

Section Random.
Variable rand : nat -> R.
Variables random_box_bottom_left random_box_top_right : vec.
Variables (dx : R) (theta phi : angle).

(** 205 *)
Definition Dbox : vec := vsub random_box_top_right random_box_bottom_left.
(** 215-217 (also 243-245, 269-271) *)
Definition images : list vec :=
  flat_map (fun m => map (fun n => v3 (m * Dbox 0%nat) 0 (n * Dbox 2%nat)) [-1; 0; 1]) [-1; 0; 1].

(** 218-223 *)
Definition count_periodic (too_close : nat) (pos : vec) (radius : R) (dxy : vec) (placed : list (R * vec)) : nat :=
  fold_left (fun c s => if overlaps_periodic pos (snd s) radius (fst s) dxy then S c else c) placed too_close.
(** 215-230 and 243-260.  The size of bead [j] is dumbbell_sizes[j//2]; here
    each bead carries its size. *)
Definition count_images (too_close : nat) (pos : vec) (radius : R) (current beads : list (R * vec)) : nat :=
  fold_left (fun c dxy =>
    let c1 := count_periodic c pos radius dxy current in
    if Nat.eqb c1 0 then count_periodic c1 pos radius dxy beads else c1) images too_close.

(** 233-263: the tries for the second bead.  [too_close] is not reset. *)
Fixpoint second_periodic (tries k too_close : nat) (bead1 : vec) (radius : R) (current beads : list (R * vec)) : option vec * nat :=
  match tries with
  | O => (None, k)
  | S tries' =>
    let '(t, k1) := draw rand theta (PI * 2) k in
    let '(f, k2) := draw rand phi PI k1 in
    let bead2 := vadd bead1 (vscal dx (v3 (sin t * cos f) (sin t * sin f) (cos t))) in
    let c := count_images too_close bead2 radius current beads in
    if Nat.eqb c 0 then (Some bead2, k2) else second_periodic tries' k2 c bead1 radius current beads
  end.
(** 211-265 *)
Fixpoint place_periodic (fuel k : nat) (radius : R) (current beads : list (R * vec)) : option (vec * vec * nat) :=
  match fuel with
  | O => None
  | S fuel' =>
    let bead1 := random_point_in_box rand random_box_bottom_left random_box_top_right k in
    let too_close := count_images 0 bead1 radius current beads in
    if Nat.eqb too_close 0 then
      match second_periodic 100 (k + 3) too_close bead1 radius current beads with
      | (Some bead2, k') => Some (bead1, bead2, k')
      | (None, k') => place_periodic fuel' k' radius current beads
      end
    else place_periodic fuel' (k + 3) radius current beads
  end.

(** 267-275: the smaller of [q] and [qq]; [bead_positions[:i]] are the first [i]
    of the 2[i] beads placed so far *)
Definition closest (bead1 bead2 : vec) (beads : list (R * vec)) : R :=
  fold_left (fun q dxy =>
    fold_left (fun q s => Rmin (Rmin q (norm (vsub bead2 (vadd (snd s) dxy)))) (norm (vsub bead1 (vadd (snd s) dxy))))
      (firstn (Nat.div2 (length beads)) beads) q) images 1000.
Definition shell (bead1 bead2 : vec) (beads : list (R * vec)) : bool := Rltb (closest bead1 bead2 beads) (2 / 10).

(** 288-290: np.mod with [Dx, 1e6, Dz] *)
Definition wrap (p : vec) : vec :=
  let L := v3 (Dbox 0%nat) 1000000 (Dbox 2%nat) in
  fun i => rmod (p i - random_box_bottom_left i) (L i) + random_box_bottom_left i.

(** 210-290: for each dumbbell its position, its delta x, and whether the shell
    was opened *)
Fixpoint places_periodic (fuel k : nat) (sizes : list R) (current beads : list (R * vec)) : option (list (vec * vec * bool) * nat) :=
  match sizes with
  | [] => Some ([], k)
  | r :: rest =>
    match place_periodic fuel k r current beads with
    | None => None
    | Some (b1, b2, k') =>
      match places_periodic fuel k' rest current (beads ++ [(r, b1); (r, b2)]) with
      | None => None
      | Some (ds, k'') => Some ((wrap (vscal (1 / 2) (vadd b1 b2)), vsub b2 b1, shell b1 b2 beads) :: ds, k'')
      end
    end
  end.
(** 192-326 *)
Definition randomise_dumbbells_periodic (fuel k : nat) (sizes : list R) (current : list (R * vec)) : option (res (list (vec * vec * bool) * nat)) :=
  match places_periodic fuel k sizes current [] with
  | None => None
  | Some (ds, k') =>
    let beads := map (fun d => vadd (fst (fst d)) (vscal (1 / 2) (snd (fst d)))) ds
                 ++ map (fun d => vsub (fst (fst d)) (vscal (1 / 2) (snd (fst d)))) ds in
    Some (if some_distance beads then Ok (ds, k') else Raise ValueError)
  end.
End Random.
