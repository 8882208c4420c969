(** Model of the scripts that turn saved files into pictures.
    Sources: stokesian_dynamics/plotting/make_video.py and plot_positions.py,
    with functions/graphics.py 186-253 as far as it decides what is drawn where.
    A picture is the list of the discs with their orientation lines and colours,
    and the corners of the red box.  Not modelled: matplotlib, titles, timings,
    the choice of the newest file, the encoder. *)
From Coq Require Import Reals List Arith Bool Ascii String ZArith.
From Verif Require Import Base Py Model_Mob Model_Close Model_Step Model_MinfP Model_Output Model_Frame Model_Inputs Model_Graphics Model_Checkpoint.
Import ListNotations.
Local Open Scope list_scope.

(** make_video.py 43-45: timestep, input number and setup number from the name of
    the file (without folder and extension). *)
Definition video_parameters (filename : text) : res (R * Z * Z) :=
  let l := split "-"%char filename in
  do w4 <- item l 4 ;; do t <- py_float (replace_char "p"%char "."%char (skipn 1 w4)) ;;
  do w2 <- item l 2 ;; do i <- py_int (skipn 1 w2) ;;
  do w1 <- item l 1 ;; do s <- py_int (skipn 1 w1) ;;
  Ok (t, i, s).

Local Open Scope R_scope.

(** [l[k]] of an array, negative [k] counting from the end *)
Definition py_row {A} (l : list A) (k : Z) : res A :=
  let k' := if (k <? 0)%Z then (k + Z.of_nat (List.length l))%Z else k in
  if (k' <? 0)%Z then Raise IndexError
  else match nth_error l (Z.to_nat k') with Some x => Ok x | None => Raise IndexError end.

(** A disc with the far ends of its two orientation lines and its redness
    (graphics.py 186-207, 95-159). *)
Record disc := mkDisc { d_radius : R; d_centre : vec; d_end1 : vec; d_end2 : vec; d_red : R }.
(** The corners of the red box in the order they are joined. *)
Record picture := mkPicture { pic_discs : list disc; pic_box : option (vec * vec * vec * vec) }.

(** graphics.py 196-204; the lists are the rows of the arrays. *)
Definition plot_all_spheres (sizes : list R) (pos : list vec) (rot : list (nat -> vec)) (f : list vec) : list disc :=
  map (fun i => mkDisc (nth i sizes 0) (nth i pos (v3 0 0 0)) (nth i rot (fun _ => (v3 0 0 0)) 0%nat) (nth i rot (fun _ => (v3 0 0 0)) 1%nat)
                  (between0and1 (norm (nth i f (v3 0 0 0)))))
    (seq 0 (List.length pos)).

(** Rows [0:n] of a saved array *)
Definition rows_of {A} (n : nat) (x : nat -> A) : list A := map x (seq 0 n).

(** ** make_video.py *)
(** 186-197: copies one box to the left, right, above and below *)
Definition video_grid : list vec :=
  flat_map (fun l => flat_map (fun m => map (fun n => v3 l m n) (gridpoints 1)) [0]) (gridpoints 1).

(** 181-204, 231-234: the lattice vectors of the copies that are drawn *)
Definition video_basis (f : flow) : mat :=
  let box := vsub (f_tr f) (f_bl f) in shear_basis_vectors (diag3 box) box (f_Ot f) (f_Et f).
Definition video_copies (f : flow) : list vec :=
  let box := vsub (f_tr f) (f_bl f) in
  let L := Rpower (box 0%nat * box 1%nat * box 2%nat) (1 / 3) in
  filter (fun X => Rleb (norm X) (grid_radius 1 L)) (map (fun n => rowmul n (video_basis f)) video_grid).

(** 206-216: [np.dot(sheared, np.linalg.solve(canonical, corners.T)).T]; the
    canonical basis is diagonal, with sides that are not 0. *)
Definition corner (f : flow) (c : vec) : vec :=
  let box := vsub (f_tr f) (f_bl f) in mvec 3 (video_basis f) (fun j => c j / box j).
Definition video_box (f : flow) : vec * vec * vec * vec :=
  let x0 := f_bl f 0%nat in let x1 := f_tr f 0%nat in let z0 := f_bl f 2%nat in let z1 := f_tr f 2%nat in
  (corner f (v3 x0 0 z0), corner f (v3 x0 0 z1), corner f (v3 x1 0 z1), corner f (v3 x1 0 z0)).

Section Video.
Variables Ns Nd : nat.                           (* from the shapes of the arrays, 77-79 *)
Variable s : list snapshot.                      (* centres, sphere_rotations, deltax *)
Variable fs : list fsnapshot.                    (* Fa, Fb, DFb *)
Variables every start stop : Z.                  (* 53-55 *)
Variable flow_at : R -> res flow.                (* [input_ftsuoe], 174-180; see below *)

(** 73-76 *)
Definition video_length : res Z :=
  if (every =? 0)%Z then Raise ZeroDivisionError
  else Ok (if (stop =? 0)%Z then Z.of_nat (List.length s) / every else (stop - start) / every)%Z.

(** 137-280 [generate_frame].  Line 278 gives [no_line] of [plot_all_dumbbells]
    twice: by position, because of the superfluous frame number, and by name. *)
Definition video_frame (num_frames frameno : Z) : res picture :=
  let real_frameno := (frameno * every + start)%Z in
  do row <- py_row s real_frameno ;;
  let k := if (frameno =? num_frames - 1)%Z then (frameno - 1)%Z else frameno in
  do frc <- py_row fs k ;;
  do f <- flow_at (IZR real_frameno) ;;
  let pos := rows_of Ns (n_pos row) in
  let rot := rows_of Ns (n_rot row) in
  let sizes := repeat 1 Ns in
  let Fa := rows_of Ns (n_Fa frc) in
  let periodic := Rltb 0 (norm (vsub (f_tr f) (f_bl f))) in
  let X := video_copies f in
  let discs := if periodic
    then plot_all_spheres (flat_map (fun _ => sizes) X) (flat_map (fun X => map (fun x => vadd x X) pos) X)
           (flat_map (fun X => map (fun r j => vadd (r j) X) rot) X) (flat_map (fun _ => Fa) X)
    else plot_all_spheres sizes pos rot Fa in
  if Nat.ltb 0 Nd then Raise TypeError
  else Ok (mkPicture (if Nat.ltb 0 Ns then discs else []) (if periodic then Some (video_box f) else None)).

(** 309-318: the pictures of [range(num_frames)] in order; the first exception
    ends it. *)
Fixpoint frames_from (num_frames : Z) (l : list nat) : res (list picture) :=
  match l with
  | [] => Ok []
  | k :: r => do p <- video_frame num_frames (Z.of_nat k) ;; do q <- frames_from num_frames r ;; Ok (p :: q)
  end.
Definition video : res (list picture) :=
  do n <- video_length ;; frames_from n (seq 0 (Z.to_nat n)).
End Video.

(** 174-180: the inputs are called with the positions drawn last (at first those
    of the setup) and without a form, so that nothing is filled in (form duf does
    the same).  What is used of the result, box and accumulated strain, does not
    depend on the positions (Proof_Video). *)
Definition video_flow (n : Z) (Ns Nd : nat) (p : config) (dt : R) (frameno : R) : res flow :=
  do x <- input_ftsuoe n duf Ns Nd p frameno dt ;; Ok (snd x).

(** The whole script applied to a file. *)
Definition make_video (filename : text) (setup : Z -> res (nat * nat * config)) (Ns Nd : nat)
    (s : list snapshot) (fs : list fsnapshot) (every start stop : Z) : res (list picture) :=
  do x <- video_parameters filename ;;
  let '(t, i, n) := x in
  do y <- setup n ;;
  let '(Ns0, Nd0, p) := y in
  video Ns Nd s fs every start stop (video_flow i Ns0 Nd0 p t).

(** ** plot_positions.py 36-61, 98-106: one frame, drawn with fixed orientation
    points; with dumbbells the frame number is taken for the positions. *)
Definition plot_positions (Ns Nd : nat) (s : list snapshot) (fs : list fsnapshot) (frameno : Z) : res (list disc) :=
  do row <- py_row s frameno ;;
  let rot := rows_of Ns (add_sphere_rotations (n_pos row) (fun _ => 1) (fun j => match j with O => v3 1 0 0 | _ => v3 0 0 1 end)) in
  do discs <- (if Nat.ltb 0 Ns then
                 do frc <- py_row fs frameno ;; Ok (plot_all_spheres (repeat 1 Ns) (rows_of Ns (n_pos row)) rot (rows_of Ns (n_Fa frc)))
               else Ok []) ;;
  if Nat.ltb 0 Nd then do _ <- py_row fs frameno ;; Raise TypeError else Ok discs.
