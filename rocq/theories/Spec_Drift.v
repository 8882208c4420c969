(** The velocity of two equal spheres pulled by the same force, in closed form. *)
From Coq Require Import Reals Arith.
From Verif Require Import Base Model_Mob Spec_Minf.
Local Open Scope R_scope.

(** How many times faster than a lone sphere two spheres move, pulled along
    their line of centres or across it.  [u] is the radius over the distance of
    the centres. *)
Definition along_gain (u : R) : R :=
  1 + 3 / 2 * u - u ^ 3 - 15 / 4 * u ^ 4 * (1 - 8 / 5 * u ^ 2) ^ 2 / (1 + 5 * u ^ 3 - 12 * u ^ 5).
Definition across_gain (u : R) : R :=
  1 + 3 / 4 * u + 1 / 2 * u ^ 3 - 16 / 5 * u ^ 8 / (1 - 5 / 2 * u ^ 3 + 8 * u ^ 5).

(** Unit vector from [x1] to [x2]. *)
Definition towards (x1 x2 : vec) : vec := fun l => (x2 l - x1 l) / norm (vsub x2 x1).

(** The part of the force along the line of centres is answered with one gain,
    the rest with the other; Stokes' law for a lone sphere. *)
Definition drift (a mu : R) (x1 x2 F : vec) : vec :=
  let u := a / used_separation x1 x2 a a in
  let e := towards x1 x2 in
  let pull := dot3 F e in
  fun l => (across_gain u * (F l - pull * e l) + along_gain u * (pull * e l)) / (6 * PI * mu * a).

(** The stresslet of the sphere at [x1]; that of the other is opposite. *)
Definition pair_stresslet (a : R) (x1 x2 F : vec) : mat :=
  let u := a / used_separation x1 x2 a a in
  let e := towards x1 x2 in
  let pull := dot3 F e in
  fun i j => - (a * u ^ 2) *
    (5 / 2 * (1 - 8 / 5 * u ^ 2) / (1 + 5 * u ^ 3 - 12 * u ^ 5) * pull * (e i * e j - delta i j / 3)
     + 4 / 3 * u ^ 2 / (1 - 5 / 2 * u ^ 3 + 8 * u ^ 5) * ((F i - pull * e i) * e j + e i * (F j - pull * e j))).
