(** Model of the placement of beads inside a polygon.
    Source: setups/functions_positions.py 329-380, 383-399.
    The random numbers are a stream [rand], as in Model_Place.v; a [while] loop
    gets [fuel] iterations and [None] means that they did not suffice.  Not
    modelled: what is printed. *)
From Coq Require Import Reals List Arith Bool.
From Verif Require Import Base Py Model_Mob Model_Close Model_Place.
Import ListNotations.
Local Open Scope R_scope.

(** The variables [p1x, p1y], [inside] and [xinters] of 383-399; [None] while
    [xinters] has no value. *)
Record pip := mkPip { p1 : R * R; inside : bool; xinters : option R }.

(** 392-397: the body of the loop once [p2x, p2y] is known *)
Definition polygon_edge (x y : R) (p2 : R * R) (s : pip) : res pip :=
  let (p1x, p1y) := p1 s in
  let (p2x, p2y) := p2 in
  if Rltb (Rmin p1y p2y) y && Rleb y (Rmax p1y p2y) && Rleb x (Rmax p1x p2x) then
    let xi := if Req_EM_T p1y p2y then xinters s
              else Some ((y - p1y) * (p2x - p1x) / (p2y - p1y) + p1x) in
    if Req_EM_T p1x p2x then Ok (mkPip p2 (negb (inside s)) xi)
    else match xi with
         | None => Raise UnboundLocalError
         | Some v => Ok (mkPip p2 (if Rleb x v then negb (inside s) else inside s) xi)
         end
  else Ok (mkPip p2 (inside s) (xinters s)).

(** 390-397: [for i in range(i0, i0 + k)] *)
Fixpoint polygon_loop (x y : R) (poly : list (R * R)) (k i : nat) (s : pip) : res pip :=
  match k with
  | O => Ok s
  | S k' =>
    do p2 <- (match nth_error poly (i mod length poly) with Some p => Ok p | None => Raise IndexError end) ;;
    do s' <- polygon_edge x y p2 s ;;
    polygon_loop x y poly k' (S i) s'
  end.

(** 383-399 *)
Definition point_inside_polygon (x y : R) (poly : list (R * R)) : res bool :=
  match poly with
  | [] => Raise IndexError
  | p0 :: _ =>
    do s <- polygon_loop x y poly (length poly + 1) 0 (mkPip p0 false None) ;;
    Ok (inside s)
  end.

(** A python number used as an array dimension: numpy accepts integers only. *)
Inductive pynum := PyInt (n : nat) | PyFloat (r : R).

(** [l.reshape([d1, d2, d3])] *)
Definition reshape3 (l : list vec) (d1 d2 d3 : pynum) : res (list vec) :=
  match d1, d2, d3 with
  | PyInt a, PyInt b, PyInt c => if Nat.eqb (length l * 3) (a * b * c) then Ok l else Raise ValueError
  | _, _, _ => Raise TypeError
  end.

(** python's [/] is true division: the result is a float, also for integers *)
Definition true_div (a b : nat) : pynum := PyFloat (INR a / INR b).

Section Beads.
Variable rand : nat -> R.
Variable quadrilateral : list (R * R).
Variables lo hi : vec.
Variable current : list vec.
Variable current_sphere_size : R.

(** 347-368: one bead.  [beads] are those placed before, with their sizes. *)
Fixpoint place_bead (fuel k : nat) (size : R) (beads : list (R * vec)) : option (res (vec * nat)) :=
  match fuel with
  | O => None
  | S fuel' =>
    let p := random_point_in_box rand lo hi k in
    match point_inside_polygon (p 0%nat) (p 2%nat) quadrilateral with
    | Raise e => Some (Raise e)
    | Ok isin =>
      if isin && negb (existsb (fun q => overlaps p q size current_sphere_size) current)
              && negb (existsb (fun b => overlaps p (snd b) size (fst b)) beads)
      then Some (Ok (p, k + 3)%nat)
      else place_bead fuel' (k + 3) size beads
    end
  end.
(** 345-372: the sizes are those of the beads, [dumbbell_sizes[i//2]] *)
Fixpoint place_beads (fuel k : nat) (sizes : list R) (beads : list (R * vec)) : option (res (list (R * vec))) :=
  match sizes with
  | [] => Some (Ok beads)
  | r :: rest =>
    match place_bead fuel k r beads with
    | None => None
    | Some (Raise e) => Some (Raise e)
    | Some (Ok (p, k')) => place_beads fuel k' rest (beads ++ [(r, p)])
    end
  end.
End Beads.

(** [np.min] and [np.max] of a column *)
Definition column_min (l : list R) : res R :=
  match l with [] => Raise ValueError | a :: r => Ok (fold_left Rmin r a) end.
Definition column_max (l : list R) : res R :=
  match l with [] => Raise ValueError | a :: r => Ok (fold_left Rmax r a) end.

(** 329-380: the dumbbell positions and delta x.  The lines after the [reshape]
    take its two halves. *)
Definition randomise_beads_inside_quadrilateral (rand : nat -> R) (fuel k : nat) (quadrilateral : list (R * R))
  (dumbbell_sizes : list R) (current : list vec) (current_sphere_size : R) : option (res (list (vec * vec))) :=
  match column_min (map fst quadrilateral), column_min (map snd quadrilateral),
        column_max (map fst quadrilateral), column_max (map snd quadrilateral) with
  | Ok x0, Ok z0, Ok x1, Ok z1 =>
    match place_beads rand quadrilateral (v3 x0 0 z0) (v3 x1 0 z1) current current_sphere_size fuel k
            (flat_map (fun r => [r; r]) dumbbell_sizes) [] with
    | None => None
    | Some (Raise e) => Some (Raise e)
    | Some (Ok beads) =>
      Some (do pos3 <- reshape3 (map snd beads) (PyInt 2) (true_div (length beads) 2) (PyInt 3) ;;
            let n := (length pos3 / 2)%nat in
            Ok (map (fun j => let a := nth j pos3 (v3 0 0 0) in let b := nth (n + j) pos3 (v3 0 0 0) in
                              (vscal (1 / 2) (vadd a b), vscal (1 / 2) (vsub b a))) (seq 0 n)))
    end
  | _, _, _, _ => Some (Raise ValueError)
  end.
