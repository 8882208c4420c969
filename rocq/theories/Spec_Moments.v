(** Force, torque and stresslet of two spheres, one of which moves, as sums over
    reflections; independently of the near-field code. *)
From Coq Require Import Reals ZArith Arith Bool.
From Verif Require Import Base Model_Mob Model_Reflect Spec_Reflect Spec_Translate Spec_Recur.
Local Open Scope R_scope.

(** Directions of the two parts j of the harmonics of degree 1 and order m about
    the x axis (the line of centres). *)
Definition ex : vec := v3 1 0 0.
Definition axis (j : nat) (m : Z) : vec :=
  match m with
  | 0%Z => if Nat.eqb j 1 then ex else v3 0 0 0
  | 1%Z => if Nat.eqb j 1 then v3 0 (- (1)) 0 else v3 0 0 (- (1))
  | (-1)%Z => if Nat.eqb j 1 then v3 0 1 0 else v3 0 0 (- (1))
  | _ => v3 0 0 0
  end.
(** The symmetric traceless matrices of those of degree 2. *)
Definition sym_axis (j : nat) (m : Z) : mat :=
  match m with
  | 0%Z => if Nat.eqb j 1 then traceless (fun c => match c with 0%nat => 1 | 1%nat => - (1) / 2 | _ => 0 end) else traceless (fun _ => 0)
  | 1%Z | (-1)%Z => fun i k => 3 / 2 * (ex i * axis j m k + axis j m i * ex k)
  | 2%Z => if Nat.eqb j 1 then traceless (fun c => match c with 1%nat => 3 | _ => 0 end) else traceless (fun c => match c with 4%nat => 3 | _ => 0 end)
  | (-2)%Z => if Nat.eqb j 1 then traceless (fun c => match c with 1%nat => 3 | _ => 0 end) else traceless (fun c => match c with 4%nat => - (3) | _ => 0 end)
  | _ => traceless (fun _ => 0)
  end.

(** Strength of the point force (along axis j m), of the point torque (along
    ex x axis j m) and of the symmetric moment (along sym_axis j m) in a flow. *)
Definition force_of (j : nat) (m : Z) (f : six) : R := 4 * PI * (cC f j 1%nat m * H 1 m).
Definition torque_of (j : nat) (m : Z) (f : six) : R := 8 * PI * (part_sign j * IZR (Z.sgn m) * (cB f (other j) 1%nat m * H 1 m)).
Definition stresslet_of (j : nat) (m : Z) (f : six) : R := 4 / 3 * PI * (cC f j 2%nat m * H 2 m).

(** The flow f leaves the sphere of radius c and has there, in every degree n, the
    velocity D n grad h + E n grad h' x x of a motion of its surface. *)
Definition starts (N : nat) (m : Z) (j : nat) (c : R) (D E : nat -> R) (f : six) : Prop :=
  forall n, (lowest m <= n <= N)%nat ->
  cancels n c (cA f j n m) 0 (cC f j n m) (- D n) 0 0 /\ cancels n c 0 (cB f (other j) n m) 0 0 (- E n) 0.
Definition only (n0 : nat) (v : R) (n : nat) : R := if Nat.eqb n0 n then v else 0.
(** It moves with velocity U along axis j m, turns with U about ex x axis j m,
    strains at the rate U along sym_axis j m. *)
Definition moves N m j c U := starts N m j c (only 1 (U / H 1 m)) (fun _ => 0).
Definition turns N m j c U := starts N m j c (fun _ => 0) (only 1 (part_sign j * IZR (Z.sgn m) * U / H 1 m)).
Definition strains N m j c U := starts N m j c (only 2 (U / (2 * H 2 m))) (fun _ => 0).

(** The sphere of radius a and the sphere of radius b, d apart; the motion is that of
    the first (own = true) or of the second.  x points from the sphere that
    moves to the other one. *)
Definition mover_radius (own : bool) (a b : R) : R := if own then a else b.
Definition exchange (N : nat) (m : Z) (own : bool) (a b d : R) (f : nat -> six) : Prop :=
  let c := mover_radius own a b in let c' := mover_radius own b a in
  forall k, reflected N m (side (S k) c c') (side k d (- d)) (f k) (f (S k)).
(** Sum over those of the flows 0..T that leave the sphere of radius a. *)
Definition total_on (own : bool) (T : nat) (moment : six -> R) (f : nat -> six) : R :=
  rsum (S T) (fun k => if Bool.eqb (Nat.even k) own then moment (f k) else 0).
(** Sum of f_l(lambda) / ((1 + lambda) s)^l over the even or odd l up to K. *)
Definition series (ev : bool) (K : nat) (F : nat -> R -> R) (lam s : R) : R :=
  rsum (S K) (fun l => if Bool.eqb (Nat.even l) ev then F l lam / ((1 + lam) * s) ^ l else 0).

(** Whatever the radii, the distance (the spheres do not overlap) and the speed
    of the motion, and however many reflections T >= K are taken, the total
    moment is unit(a) U sign times the series of F in the even or odd powers,
    with an error of order K + 1 in 1/d. *)
Definition moment_is (motion : nat -> Z -> nat -> R -> R -> six -> Prop) (moment : nat -> Z -> six -> R)
    (N K : nat) (m : Z) (own ev : bool) (F : nat -> R -> R) (unit : R -> R) (sign : R) : Prop :=
  forall T, (K <= T)%nat -> exists E, forall j a b d U f, (j = 1 \/ j = 2)%nat -> 0 < a -> 0 < b -> a + b <= d ->
  motion N m j (mover_radius own a b) U (f 0%nat) -> exchange N m own a b d f ->
  Rabs (total_on own T (moment j m) f - sign * unit a * U * series ev K F (b / a) (2 * d / (a + b))) <= E * (unit a * Rabs U * (1 + b / a)) * ((a + b) / d) ^ S K.
