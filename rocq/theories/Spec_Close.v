(** Which pairs are close, and near-field blocks in terms of positions. *)
From Coq Require Import Reals Arith Bool List.
From Verif Require Import Base Model_Mob Model_Minf Model_Close Spec_Layout Spec_Minf Spec_R2B.
Local Open Scope R_scope.

(** Centre distance over mean radius. *)
Definition scaled_distance (x : nat -> vec) (a : nat -> R) (i j : nat) : R :=
  2 * norm (vsub (x j) (x i)) / (a i + a j).
(** Unit vector from i to j. *)
Definition direction (x : nat -> vec) (i j : nat) : vec :=
  vscal (/ norm (vsub (x j) (x i))) (vsub (x j) (x i)).

(** Near-field block of beads [p], [q] out of [n] at positions [x]. *)
Definition free_resistance (sc : nat -> nat -> R -> nat -> R) (ix : R -> nat) (bb : bool)
    (x : nat -> vec) (a : nat -> R) (n : nat) (cutoff_factor : R)
    (k1 : kind) (p : nat) (k2 : kind) (q : nat) (i j : nat) : R :=
  let close := fun q => if Rlt_dec (scaled_distance x a p q) (2 * cutoff_factor) then true else false in
  if Nat.eqb p q then
    rsum n (fun q' => if (negb (Nat.eqb q' p) && close q')%bool
                      then self_block sc ix k1 k2 (direction x p q') (scaled_distance x a p q') (a p) (a q') i j
                      else 0)
  else match k1, k2, bb with
  | KB, KB, false => 0
  | _, _, _ => if close q then cross_block sc ix k1 k2 (direction x p q) (scaled_distance x a p q) (a p) (a q) i j
               else 0
  end.

(** Integer combination of the rows of a lattice basis. *)
Definition lattice_shift (basis : mat) (m : nat -> Z) : vec :=
  fun l => rsum 3 (fun k => IZR (m k) * basis k l).

(** Displacement gradient gamma of u_x = gamma y. *)
Definition shear_O (g : R) : vec := v3 0 0 (- (g / 2)).
Definition shear_E (g : R) : mat := fun i j =>
  match i, j with 0%nat, 1%nat | 1%nat, 0%nat => g / 2 | _, _ => 0 end.
