(** Model of the sparse matrix of the dumbbell change of variables in the
    resistance matrix.
    Source: stokesian_dynamics/functions/generate_R2Bexact.py 320-333. *)
From Coq Require Import Reals Arith List.
From Verif Require Import Base Model_Minf.
Import ListNotations.
Local Open Scope R_scope.

Definition r2b_L (Ns Nd : nat) : mat :=
  let Lrow := seq 0 (11 * Ns + 6 * Nd)
              ++ map (fun i => i + 11 * Ns)%nat (seq 0 (3 * Nd))
              ++ map (fun i => i + 11 * Ns + 3 * Nd)%nat (seq 0 (3 * Nd)) in
  let Lcol := seq 0 (11 * Ns + 6 * Nd)
              ++ map (fun i => i + 11 * Ns + 3 * Nd)%nat (seq 0 (3 * Nd))
              ++ map (fun i => i + 11 * Ns)%nat (seq 0 (3 * Nd)) in
  let Ldata := repeat 1 (11 * Ns + 9 * Nd) ++ repeat (- (1)) (3 * Nd) in
  coo_matrix Ldata Lrow Lcol.

(** 335: [L*R2Bexact*R]. *)
Definition r2b_transform (Ns Nd : nat) (M : mat) : mat :=
  let N := (11 * Ns + 6 * Nd)%nat in
  mmul N (mmul N (r2b_L Ns Nd) M) (mtr (r2b_L Ns Nd)).
(** generate_Minfinity.py 324: the same with the halves. *)
Definition minf_transform (Ns Nd : nat) (M : mat) : mat :=
  let N := (11 * Ns + 6 * Nd)%nat in
  mmul N (mmul N (minf_L Ns Nd) M) (mtr (minf_L Ns Nd)).
