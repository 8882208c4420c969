(** Two spheres in a viscous fluid: what their mobility and resistance scalars
    have to satisfy, whatever their values (they are only known as series). *)
From Coq Require Import Reals Arith List.
From Verif Require Import Base Model_Mob Spec_Pack Spec_Output Spec_Scalars.
Import ListNotations.
Local Open Scope R_scope.

(** Powers of the unit of length in the eleven families of resistance scalars
    (XA YA YB XC YC XG YG YH XM YM ZM), and the families which change sign if
    the direction is reversed. *)
Definition length_power (n : nat) : nat := nth n [1; 1; 2; 3; 3; 2; 2; 3; 3; 3; 3]%nat 0%nat.
Definition odd_family (n : nat) : bool := nth n [false; false; true; false; false; true; true; false; false; false; false] false.

(** Unit direction, strains, some motion at all, and the power spent. *)
Definition unit_vector (d : vec) : Prop := d 0%nat * d 0%nat + d 1%nat * d 1%nat + d 2%nat * d 2%nat = 1.
Definition strains (E : nat -> mat) : Prop := forall q, (q < 2)%nat -> strain (E q).
Definition moving (U O : nat -> vec) (E : nat -> mat) : Prop :=
  exists p i, (p < 2)%nat /\ (i < 3)%nat /\ (U p i <> 0 \/ O p i <> 0 \/ exists j, (j < 3)%nat /\ E p i j <> 0).
Definition power (U O : nat -> vec) (E : nat -> mat) (F T : nat -> vec) (S : nat -> mat) : R :=
  rsum 2 (fun p => rsum 3 (fun i => F p i * U p i + T p i * O p i + rsum 3 (fun j => S p i j * E p i j))).

(** [x r1 r2 s] and [X r1 r2 s]: mobility and resistance scalars of spheres of
    radii [r1] and [r2] with centres [s] apart that do not overlap, in a fluid of viscosity 1. *)
Definition two_sphere_scalars (x X : R -> R -> R -> nat -> R) : Prop :=
  (* they describe the same pair *)
  (forall r1 r2 s d U O F T E S, 0 < r1 -> 0 < r2 -> r1 + r2 < s -> unit_vector d -> strains E ->
     (mobility_law (x r1 r2 s) d U O F T E S <-> resistance_law (X r1 r2 s) d U O F T E S)) /\
  (* the unit of length does not matter *)
  (forall h r1 r2 s n p q, 0 < h -> 0 < r1 -> 0 < r2 -> r1 + r2 < s -> (n < 11)%nat -> (p < 2)%nat -> (q < 2)%nat ->
     scalar (X (h * r1) (h * r2) (h * s)) n p q = h ^ length_power n * scalar (X r1 r2 s) n p q) /\
  (* nor which of the spheres is called the first *)
  (forall r1 r2 s n p q, 0 < r1 -> 0 < r2 -> r1 + r2 < s -> (n < 11)%nat -> (p < 2)%nat -> (q < 2)%nat ->
     scalar (X r2 r1 s) n p q = (if odd_family n then - 1 else 1) * scalar (X r1 r2 s) n (1 - p) (1 - q)) /\
  (* reciprocal theorem *)
  (forall r1 r2 s n p q, 0 < r1 -> 0 < r2 -> r1 + r2 < s -> In n [0; 1; 3; 4; 8; 9; 10]%nat -> (p < 2)%nat -> (q < 2)%nat ->
     scalar (X r1 r2 s) n p q = scalar (X r1 r2 s) n q p) /\
  (* moving them costs power *)
  (forall r1 r2 s d U O F T E S, 0 < r1 -> 0 < r2 -> r1 + r2 < s -> unit_vector d -> strains E -> moving U O E ->
     resistance_law (X r1 r2 s) d U O F T E S -> 0 < power U O E F T S).

(** Divisors of the dimensionless scalars: those of a lone unit sphere (force,
    torque, stresslet), and 4 pi for the mixed families. *)
Definition table_scale (n : nat) : R :=
  nth n [6 * PI; 6 * PI; 4 * PI; 8 * PI; 8 * PI; 4 * PI; 4 * PI; 8 * PI; 20 / 3 * PI; 20 / 3 * PI; 20 / 3 * PI] 0.
(** The table lists the dimensionless scalars of a unit sphere beside one of
    radius [lam], for each separation [s'] in mean radii. *)
Definition tabulates (X : R -> R -> R -> nat -> R) (lams srange : list R) (raw : nat -> nat -> nat -> nat -> R) : Prop :=
  forall n g si li, (n < 11)%nat -> (g < 2)%nat -> (si < length srange)%nat -> (li < length lams)%nat ->
    let lam := nth li lams 0 in
    raw n g si li = scalar (X 1 lam ((1 + lam) / 2 * nth si srange 0)) n 0 g / table_scale n.

(** Tolerance of the comparison in tests/test_all.py. *)
Definition within (v w : R) : Prop := Rabs (v - w) <= / 10 ^ 8 + / 10 ^ 3 * Rabs w.
(** Velocities, angular velocities and five numbers for each stresslet. *)
Definition numbers (U O : list (list R)) (S : list (list (list R))) : list R := concat U ++ concat O ++ flat_map five S.
Definition two_answers (U O : list (list R)) (S : list (list (list R))) : Prop :=
  shaped 2 3 U /\ shaped 2 3 O /\ length S = 2%nat /\ forall t, In t S -> is33 t.
