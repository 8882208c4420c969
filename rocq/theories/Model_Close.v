(** Model of the search for close pairs.
    Source: stokesian_dynamics/functions/shared.py 428-517. *)
From Coq Require Import Reals Arith Bool List.
From Verif Require Import Base Model_Mob.
Import ListNotations.
Local Open Scope R_scope.

(** One entry of the four parallel arrays returned by [close_particles]: the
    pair of indices, the scaled displacement (second minus first), the scaled
    distance and the size ratio (second over first). *)
Record cpair := mkCpair { cp1 : nat; cp2 : nat; cp_disp : vec; cp_dist : R; cp_ratio : R }.

(** [np.mod(x, L)] for reals: the representative of x in [0, L) modulo L
    (L > 0).  [Int_part] is the floor. *)
Definition rmod (x L : R) : R := x - L * IZR (Int_part (x / L)).

(** 428-437 [shear_basis_vectors]: rows of the matrix are the basis vectors.
    add-on of row b is cross(Ot, b) + Et b, reduced modulo the box. *)
Definition shear_basis_vectors (basis : mat) (box : vec) (Ot : vec) (Et : mat) : mat :=
  fun i j => basis i j + rmod (cross Ot (basis i) j + rsum 3 (fun k => Et j k * basis i k)) (box j).

(** [np.diag(box_dimensions)] *)
Definition diag3 (box : vec) : mat := fun i j => if Nat.eqb i j then box i else 0.

Definition Rltb (x y : R) : bool := if Rlt_dec x y then true else false.
Definition Rleb (x y : R) : bool := if Rle_dec x y then true else false.

(** 500-514, not periodic.  [pdist]/[squareform] give the distance matrix; the
    result of [np.where] is in row-major order. *)
Definition close_particles_free (x : nat -> vec) (a : nat -> R) (n : nat) (cutoff_factor : R) : list cpair :=
  let cutoff := 2 * cutoff_factor in
  let dist := fun i j => norm (vsub (x i) (x j)) / (1 / 2 * (a j + a i)) in
  map (fun f => mkCpair (fst f) (snd f)
                  (vscal (2 / (a (fst f) + a (snd f))) (vsub (x (snd f)) (x (fst f))))
                  (dist (fst f) (snd f)) (a (snd f) / a (fst f)))
    (filter (fun f => Nat.leb (fst f) (snd f))
       (filter (fun f => Rltb (dist (fst f) (snd f)) cutoff)
          (flat_map (fun i => map (fun j => (i, j)) (seq 0 n)) (seq 0 n)))).

(** 453-498, periodic.  [inv] is [np.linalg.inv] of 3 by 3 matrices; positions
    are row vectors multiplied by matrices from the right. *)
Definition rowmul (v : vec) (A : mat) : vec := fun j => rsum 3 (fun k => v k * A k j).
Definition max3abs (v : vec) : R := Rmax (Rmax (Rabs (v 0%nat)) (Rabs (v 1%nat))) (Rabs (v 2%nat)).

Definition periodic_disp (inv : mat -> mat) (x : nat -> vec) (box : vec) (Ot : vec) (Et : mat) (i j : nat) : vec :=
  let basis := diag3 box in
  let sheared := shear_basis_vectors basis box Ot Et in
  let unsheared := fun k => rowmul (rowmul (x k) (inv sheared)) basis in
  rowmul (fun k => rmod (rowmul (vsub (unsheared j) (unsheared i)) (inv basis) k + 1 / 2) 1 - 1 / 2) sheared.

Definition close_particles_periodic (inv : mat -> mat) (x : nat -> vec) (a : nat -> R) (n : nat)
    (cutoff_factor : R) (box : vec) (Ot : vec) (Et : mat) : list cpair :=
  let cutoff := 2 * cutoff_factor in
  let disp := periodic_disp inv x box Ot Et in
  let pairs := flat_map (fun i =>
       map (fun j => (i, j))
         (filter (fun j => Nat.leb i j)
            (filter (fun j => Rleb (norm (disp i j)) cutoff)
               (filter (fun j => Rleb (max3abs (disp i j)) cutoff) (seq 0 n))))) (seq 0 n) in
  map (fun f => mkCpair (fst f) (snd f)
                  (vscal (2 / (a (fst f) + a (snd f))) (disp (fst f) (snd f)))
                  (2 * norm (disp (fst f) (snd f)) / (a (fst f) + a (snd f))) (a (snd f) / a (fst f)))
    (filter (fun f => Rleb (2 * norm (disp (fst f) (snd f)) / (a (fst f) + a (snd f))) cutoff) pairs).
