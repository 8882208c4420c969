(** The mobility and resistance problems of two spheres (Kim and Karrila,
    sections 5.3 and 7.2): spheres 0 and 1, [d] the unit vector from 0 to 1,
    scalar [n] of the eleven families of spheres [p], [q] is [x (4 n + 2 p + q)].
    Velocities are those of the surrounding flow relative to the sphere and
    moments those exerted by the fluid, so that the resistance is positive. *)
From Coq Require Import Reals Arith.
From Verif Require Import Base Model_Mob.
Local Open Scope R_scope.

Definition scalar (x : nat -> R) (n p q : nat) : R := x (4 * n + 2 * p + q)%nat.

Section Tensors.
Variables (x : nat -> R) (d : vec).
Notation s := (scalar x).
Notation t i j := (delta i j - d i * d j).

(** force / velocity, torque / velocity, torque / rotation *)
Definition tA (p q i j : nat) : R := s 0 p q * (d i * d j) + s 1 p q * t i j.
Definition tB (p q i j : nat) : R := s 2 p q * rsum 3 (fun k => levi i j k * d k).
Definition tC (p q i j : nat) : R := s 3 p q * (d i * d j) + s 4 p q * t i j.
(** stresslet / velocity, stresslet / rotation, stresslet / strain *)
Definition tG (p q i j k : nat) : R :=
  s 5 p q * ((d i * d j - delta i j / 3) * d k) + s 6 p q * (d i * t j k + d j * t i k).
Definition tH (p q i j k : nat) : R :=
  s 7 p q * (d i * rsum 3 (fun m => levi j k m * d m) + d j * rsum 3 (fun m => levi i k m * d m)).
Definition tM (p q i j k l : nat) : R :=
  s 8 p q * (3 / 2 * (d i * d j - delta i j / 3) * (d k * d l - delta k l / 3))
  + s 9 p q * (1 / 2 * (d i * d k * t j l + d j * d k * t i l + d i * d l * t j k + d j * d l * t i k))
  + s 10 p q * (1 / 2 * (t i k * t j l + t j k * t i l - t i j * t k l)).
End Tensors.

(** (F, T, S) = R (U, O, E), with R symmetric. *)
Definition resistance_law (X : nat -> R) (d : vec) (U O F T : nat -> vec) (E S : nat -> mat) : Prop :=
  (forall p i, (p < 2)%nat -> (i < 3)%nat ->
     F p i = rsum 2 (fun q => rsum 3 (fun j => tA X d p q i j * U q j) + rsum 3 (fun j => tB X d q p j i * O q j)
                              + rsum 3 (fun j => rsum 3 (fun k => tG X d q p j k i * E q j k)))) /\
  (forall p i, (p < 2)%nat -> (i < 3)%nat ->
     T p i = rsum 2 (fun q => rsum 3 (fun j => tB X d p q i j * U q j) + rsum 3 (fun j => tC X d p q i j * O q j)
                              + rsum 3 (fun j => rsum 3 (fun k => tH X d q p j k i * E q j k)))) /\
  (forall p i j, (p < 2)%nat -> (i < 3)%nat -> (j < 3)%nat ->
     S p i j = rsum 2 (fun q => rsum 3 (fun k => tG X d p q i j k * U q k) + rsum 3 (fun k => tH X d p q i j k * O q k)
                                + rsum 3 (fun k => rsum 3 (fun l => tM X d p q i j k l * E q k l)))).

(** (U, O, S) = M (F, T, E): symmetric in its force part; the strain part is
    minus the transpose of the stresslet part. *)
Definition mobility_law (x : nat -> R) (d : vec) (U O F T : nat -> vec) (E S : nat -> mat) : Prop :=
  (forall p i, (p < 2)%nat -> (i < 3)%nat ->
     U p i = rsum 2 (fun q => rsum 3 (fun j => tA x d p q i j * F q j) + rsum 3 (fun j => tB x d q p j i * T q j)
                              - rsum 3 (fun j => rsum 3 (fun k => tG x d q p j k i * E q j k)))) /\
  (forall p i, (p < 2)%nat -> (i < 3)%nat ->
     O p i = rsum 2 (fun q => rsum 3 (fun j => tB x d p q i j * F q j) + rsum 3 (fun j => tC x d p q i j * T q j)
                              - rsum 3 (fun j => rsum 3 (fun k => tH x d q p j k i * E q j k)))) /\
  (forall p i j, (p < 2)%nat -> (i < 3)%nat -> (j < 3)%nat ->
     S p i j = rsum 2 (fun q => rsum 3 (fun k => tG x d p q i j k * F q k) + rsum 3 (fun k => tH x d p q i j k * T q k)
                                + rsum 3 (fun k => rsum 3 (fun l => tM x d p q i j k l * E q k l)))).

(** A rate of strain: symmetric and traceless. *)
Definition strain (E : mat) : Prop :=
  (forall i j, (i < 3)%nat -> (j < 3)%nat -> E i j = E j i) /\ E 0%nat 0%nat + E 1%nat 1%nat + E 2%nat 2%nat = 0.
