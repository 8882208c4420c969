(** Model of the geometry in functions/graphics.py.
    Not modelled: matplotlib (figures, patches, colours of lines).  A patch is
    the list of the vertices of its path in the plane. *)
From Coq Require Import Reals List Arith Bool.
From Verif Require Import Base Model_Mob Model_Close Model_Step.
Import ListNotations.
Local Open Scope R_scope.

(** 25-47.  Returns also the argument, which is normalised in place (41); an
    integer array would raise there. *)
Definition rotation_matrix (d : vec) : mat * vec :=
  let sin_angle := norm d in
  if Reqb sin_angle 0 then (delta, d)
  else
    let d' := fun i => d i / sin_angle in
    let ddt := fun i j => d' i * d' j in
    let skew := fun i j => v3 (v3 0 (d' 2%nat) (- d' 1%nat) j)
                              (v3 (- d' 2%nat) 0 (d' 0%nat) j)
                              (v3 (d' 1%nat) (- d' 0%nat) 0 j) i in
    (fun i j => ddt i j + sqrt (1 - sin_angle ^ 2) * (delta i j - ddt i j) + sin_angle * skew i j, d').

(** 49-77 with a vector as normal (a string gives an integer array, for which
    line 60 raises). *)
Definition pathpatch_2d_to_3d (verts : list (R * R)) (z : R) (normal : vec) : list vec :=
  let n := fun i => normal i / norm normal in
  let d := cross n (v3 0 0 1) in
  let M := fst (rotation_matrix d) in
  map (fun v => vadd (mvec 3 M (v3 (fst v) (snd v) 0)) (v3 0 0 z)) verts.
(** 80-82 *)
Definition pathpatch_translate (segment : list vec) (delta : vec) : list vec := map (fun v => vadd v delta) segment.

(** 85-92 *)
Definition between0and1 (num : R) : R := if Rltb num 0 then 0 else if Rltb 1 num then 1 else num.

(** 361-366 *)
Definition from0topi (n : R) : R := if Rltb n 0 then n + PI else n.
(** 377-380; [elev] and [azim] are the view angles of the axes, in degrees *)
Definition normal (elev azim : R) : vec :=
  let theta := from0topi (elev * PI / 180) in
  let phi := azim * PI / 180 in
  v3 (cos theta * cos phi) (cos theta * sin phi) (sin theta).

(** 107-110 (and 172-180 for each bead): the outline drawn for a sphere; [verts]
    is the outline of [Circle((0, 0), radius)] in the plane. *)
Definition drawn_circle (verts : list (R * R)) (position : vec) (elev azim : R) : list vec :=
  pathpatch_translate (pathpatch_2d_to_3d verts 0 (normal elev azim)) (v3 (position 0%nat) (position 1%nat) (position 2%nat)).
(** 155-156 *)
Definition dumbbell_ends (position dx : vec) : vec * vec := (vsub position (vscal (1 / 2) dx), vadd position (vscal (1 / 2) dx)).

(** 256-283: the arrows that are drawn, as pairs (tail, head).  The scaling by
    6 (264) stays for the following spheres. *)
Definition nonzero (v : vec) : bool := negb (Reqb (v 0%nat) 0 && Reqb (v 1%nat) 0 && Reqb (v 2%nat) 0).
Definition visible (x : vec) : bool := Rltb (x 1%nat) (/ 20) && Rltb (-1) (x 1%nat).
Definition force_lines (n : nat) (position f_spheres : nat -> vec) : list (vec * vec) :=
  snd (fold_left (fun st i =>
         let '(f, lines) := st in
         if nonzero (f i) && visible (position i) then
           let f' := fun k => vscal 6 (f k) in
           (f', lines ++ [(position i, vadd (position i) (f' i))])
         else (f, lines))
       (seq 0 n) (f_spheres, [])).
