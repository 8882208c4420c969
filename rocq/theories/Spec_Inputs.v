(** What the example inputs are meant to prescribe. *)
From Coq Require Import Reals List Arith ZArith.
From Verif Require Import Base Model_Mob Model_Output.
Import ListNotations.
Local Open Scope R_scope.

(** Row [k] is present and given as [v]. *)
Definition row_is {A} (l : list (option A)) (k : nat) (v : A) : Prop := nth_error l k = Some (Some v).
(** Exactly [n] rows, all equal to [v]. *)
Definition rows_are {A} (l : list (option A)) (n : nat) (v : A) : Prop :=
  length l = n /\ forall k, (k < n)%nat -> row_is l k v.
Definition at_rest : list R := [0; 0; 0].
Definition no_tensor : list (list R) := [at_rest; at_rest; at_rest].

(** Energy of a spring of natural length 2 and constant 1 with end-to-end vector
    [dx]. *)
Definition spring_energy (dx : vec) : R := (norm dx - 2) ^ 2 / 2.
Definition shift (dx : vec) (l : nat) (t : R) : vec := fun k => if Nat.eqb k l then dx k + t else dx k.

(** Force and torque on sphere [k] in the two-sphere tests (F11, F12, F21, F22,
    T11, T12, T21, T22, F1 and T1 of their comments). *)
Definition test_force (n : Z) (k : nat) : list R :=
  match n, k with
  | (-1)%Z, 0%nat => [1; 0; 0] | (-2)%Z, 0%nat => [0; 1; 0]
  | (-3)%Z, 1%nat => [1; 0; 0] | (-4)%Z, 1%nat => [0; 1; 0]
  | (-12)%Z, 0%nat => [1; 0; 0] | (-12)%Z, 1%nat => [-1; 0; 0]
  | _, _ => at_rest
  end.
Definition test_torque (n : Z) (k : nat) : list R :=
  match n, k with
  | (-5)%Z, 0%nat => [1; 0; 0] | (-6)%Z, 0%nat => [0; 1; 0]
  | (-7)%Z, 1%nat => [1; 0; 0] | (-8)%Z, 1%nat => [0; 1; 0]
  | (-13)%Z, 0%nat => [1; 0; 0] | (-13)%Z, 1%nat => [-1; 0; 0]
  | _, _ => at_rest
  end.
(** Rate of strain, the same for both spheres (E11, E13, E14). *)
Definition test_strain (n : Z) : list (list R) :=
  match n with
  | (-9)%Z => [[1; 0; 0]; [0; -1/2; 0]; [0; 0; -1/2]]
  | (-10)%Z => [[0; 0; 0]; [0; 0; 1]; [0; 1; 0]]
  | (-11)%Z => [[0; 1; 0]; [1; 0; 0]; [0; 0; 0]]
  | _ => no_tensor
  end.
