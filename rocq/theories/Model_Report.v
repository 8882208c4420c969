(** Model of what the functions of random placement print when they are done,
    and of the unused test [not_in_spheres].
    Source: setups/functions_positions.py 63-84 (spheres), 153-179 (dumbbells),
    182-189.  (Periodic boxes: Model_ReportP.)
    Simplified: a printed number is the number itself (its formatting, and the
    factor 100 of the percentages, are left out). *)
From Coq Require Import Reals List Arith Bool.
From Verif Require Import Base Py Model_Mob Model_Close Model_Place.
Import ListNotations.
Local Open Scope R_scope.

(** division of numpy floats: x / 0 gives inf (0 / 0 gives nan) and a warning *)
Inductive npfloat := Fin (x : R) | Inf | Nan.
Definition np_div (x y : R) : npfloat :=
  if Req_EM_T y 0 then (if Req_EM_T x 0 then Nan else Inf) else Fin (x / y).

(** 65-66, 155: entry (i, j) of [distance_matrix] *)
Definition distance_matrix (ps : list vec) (i j : nat) : R :=
  norm (vsub (nth j ps (v3 0 0 0)) (nth i ps (v3 0 0 0))).
Definition entries {A} (n : nat) (f : nat -> nat -> list A) : list A :=
  flat_map (fun i => flat_map (f i) (seq 0 n)) (seq 0 n).
(** 67, 156: np.min; ValueError for an empty array *)
Definition np_min (l : list R) : res R :=
  match l with [] => Raise ValueError | x :: l' => Ok (fold_left Rmin l' x) end.
Definition min_element_distance (ps : list vec) : res R :=
  np_min (entries (length ps) (fun i j => let d := distance_matrix ps i j in if Req_EM_T d 0 then [] else [d])).
(** 68 and 70, 157 and 159: the first array of [np.where] *)
Definition two_closest_elements (ps : list vec) (m : R) : list nat :=
  entries (length ps) (fun i j => if Req_EM_T (distance_matrix ps i j) m then [i] else []).

(** np.dot(sizes, sizes) and np.sum(sizes ** 3) *)
Definition np_sum (l : list R) : R := fold_left Rplus l 0.

Record report := mkReport { min_s : npfloat; closest_two : list nat; fractions : list npfloat }.

Section Box.
Variables random_box_bottom_left random_box_top_right : vec.
(** 72-73, 161 *)
Definition box_dimensions (i : nat) : R := Rabs (random_box_top_right i - random_box_bottom_left i).

(** 75-82 *)
Definition fractions_spheres (sizes : list R) : list npfloat :=
  if Req_EM_T (box_dimensions 1) 0 then
    [np_div (PI * np_sum (map (fun a => a * a) sizes)) (box_dimensions 0 * box_dimensions 2)]
  else
    [np_div (4 / 3 * PI * np_sum (map (fun a => a ^ 3) sizes)) (box_dimensions 0 * box_dimensions 1 * box_dimensions 2)].
(** 163-177: in two dimensions the area fraction and the effective volume fraction *)
Definition fractions_dumbbells (sizes : list R) : list npfloat :=
  if Req_EM_T (box_dimensions 1) 0 then
    [np_div (PI * np_sum (map (fun a => a * a) sizes) * 2) (box_dimensions 0 * box_dimensions 2);
     np_div (4 / 3 * PI * np_sum (map (fun a => a ^ 3) sizes) * 2) (box_dimensions 0 * box_dimensions 2 * nth 0 sizes 0 * 2)]
  else
    [np_div (4 / 3 * PI * np_sum (map (fun a => a ^ 3) sizes) * 2) (box_dimensions 0 * box_dimensions 1 * box_dimensions 2)].

(** 63-82 *)
Definition report_spheres (sizes : list R) (ps : list vec) : res report :=
  do m <- min_element_distance ps ;;
  Ok (mkReport (np_div m (nth 0 sizes 0)) (two_closest_elements ps m) (fractions_spheres sizes)).
(** 153-177 *)
Definition report_dumbbells (sizes : list R) (ds : list (vec * vec)) : res report :=
  let beads := map (fun d => vadd (fst d) (vscal (1 / 2) (snd d))) ds
               ++ map (fun d => vsub (fst d) (vscal (1 / 2) (snd d))) ds in
  do m <- min_element_distance beads ;;
  Ok (mkReport (np_div m (nth 0 sizes 0)) (two_closest_elements beads m) (fractions_dumbbells sizes)).

(** 29-84 and 87-179 once more, with the report *)
Definition randomise_spheres_said (rand : nat -> R) (fuel k : nat) (sizes : list R) (current : list (R * vec))
  : option (res (list vec * nat * report)) :=
  match place_spheres rand random_box_bottom_left random_box_top_right fuel k sizes current with
  | None => None
  | Some (ps, k') => Some (do r <- report_spheres sizes ps ;; Ok (ps, k', r))
  end.
Definition randomise_dumbbells_said (rand : nat -> R) (dx : R) (theta phi : angle) (fuel k : nat) (sizes : list R) (current : list (R * vec))
  : option (res (list (vec * vec) * nat * report)) :=
  match place_dumbbells rand random_box_bottom_left random_box_top_right dx theta phi fuel k sizes current [] with
  | None => None
  | Some (ds, k') => Some (do r <- report_dumbbells sizes ds ;; Ok (ds, k', r))
  end.
End Box.

(** 182-189 *)
Fixpoint not_in_spheres (position : vec) (current_spheres_positions : list vec) (current_sphere_size dumbbell_size : R) : bool :=
  match current_spheres_positions with
  | [] => true
  | centre :: rest =>
    if Rltb (norm (vsub position centre)) (current_sphere_size + dumbbell_size) then false
    else not_in_spheres position rest current_sphere_size dumbbell_size
  end.
