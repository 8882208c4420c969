(** Model of both grand resistance matrices, near field and exceptions
    included.
    Source: stokesian_dynamics/functions/generate_grand_resistance_matrix.py.
    Timing and the printed text are omitted; [verbose] is [printout > 1].
    [inv] and [inv3] are [np.linalg.inv]; matrices have the side
    11*num_spheres + 6*num_dumbbells (a stored inverse of another shape is not
    modelled). *)
From Coq Require Import Reals Arith Bool List.
From Verif Require Import Base Py Model_Minf Model_Grand Model_Close Model_R2B Model_MinfP.
Local Open Scope R_scope.

(** 76-99, 181-194: an exception from generate_R2Bexact passes through. *)
Definition add_near (minf_only : bool) (near : option mat) (mi : mat) : res mat :=
  if minf_only then Ok mi
  else match near with Some g => Ok (madd g mi) | None => Raise IndexError end.

(** 13-111.  101-103: the far-field matrix is printed, but only assigned if it
    was generated (44). *)
Definition grand_resistance_free (inv : nat -> mat -> mat) (sc : nat -> nat -> R -> nat -> R) (table : list R)
    (bb : bool) (p : posdata) (last : mat) (regenerate : bool) (cutoff_factor : R) (verbose use_drag minf_only : bool)
    (mu : R) : res (mat * mat) :=
  let mi := Minfinity_inverse inv bb p mu use_drag regenerate last in
  do g <- add_near minf_only (generate_R2Bexact_free sc table bb p cutoff_factor mu) mi ;;
  if (verbose && (use_drag || negb regenerate))%bool then Raise UnboundLocalError else Ok (g, mi).

(** 114-198.  172-177: [sphere_sizes[i/3]] is an index that is not an integer
    (as [/] is true division), which numpy rejects; with no particles nothing
    is indexed. *)
Definition grand_resistance_periodic (inv : nat -> mat -> mat) (inv3 : mat -> mat) (sc : nat -> nat -> R -> nat -> R)
    (table : list R) (h : nat) (bb : bool) (p : posdata) (last : mat) (bl tr : vec) (regenerate : bool)
    (cutoff_factor : R) (use_drag minf_only : bool) (mu : R) (Ot : vec) (Et : mat) (stale : nat -> nat -> R)
    : res (mat * mat) :=
  do mi <- (if use_drag then
              if Nat.eqb (num_spheres p + num_dumbbells p) 0 then Ok mzero else Raise IndexError
            else if regenerate then
              Ok (inv (11 * num_spheres p + 6 * num_dumbbells p)%nat
                    (generate_Minfinity_periodic h bb p bl tr mu Ot Et stale))
            else Ok last) ;;
  do g <- add_near minf_only
            (generate_R2Bexact_periodic inv3 sc table bb p cutoff_factor mu (vsub tr bl) Ot Et) mi ;;
  Ok (g, mi).
