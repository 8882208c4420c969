(** Positive definite matrices, and numerical routines that work on every
    invertible matrix. *)
From Coq Require Import Reals List Arith.
From Verif Require Import Base Spec_Convert Spec_Output.
Local Open Scope R_scope.

(** Every motion costs power: x . A x > 0 unless x = 0.  (No symmetry is asked
    for.) *)
Definition pos_def (n : nat) (A : mat) : Prop :=
  forall x y : vec, linrel n A x y -> (exists i, (i < n)%nat /\ x i <> 0) -> 0 < rsum n (fun i => x i * y i).

Definition invertible (n : nat) (A : mat) : Prop := exists B, is_inv n A B.

(** [np.linalg.inv] and [np.linalg.solve] are right for every positive definite
    matrix. *)
Definition inverts_posdef (inv : nat -> mat -> mat) : Prop := forall n A, pos_def n A -> inv_ok inv n A.
Definition solves_posdef (solve : nat -> mat -> list R -> list R) : Prop := forall n A, pos_def n A -> solve_ok solve n A.
