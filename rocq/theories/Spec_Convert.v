(** What it means for a converted matrix to describe the same linear problem. *)
From Coq Require Import Reals Arith Bool.
From Verif Require Import Base.
Local Open Scope R_scope.

(** [y = A x] for an [n] by [n] matrix. *)
Definition linrel (n : nat) (A : mat) (x y : vec) : Prop :=
  forall i, (i < n)%nat -> y i = rsum n (fun j => A i j * x j).

(** [x] with the components in the index set [s] replaced by those of [y]. *)
Definition exch (s : nat -> bool) (x y : vec) : vec := fun i => if s i then y i else x i.

(** [A'] describes the same problem as [A] after the roles of the unknowns and
    knowns with index in [s] have been exchanged: whenever [A] maps velocities
    [u] to forces [f], [A'] maps the mixed vector (u, but f on s) to the mixed
    vector (f, but u on s), and conversely. *)
Definition same_problem (n : nat) (s : nat -> bool) (A A' : mat) : Prop :=
  forall u f, linrel n A u f <-> linrel n A' (exch s u f) (exch s f u).

(** Symmetric up to a sign that flips when exactly one index is in [s]: the
    sign-symmetry of a symmetric matrix partially inverted on [s]. *)
Definition sign_symmetric (n : nat) (s : nat -> bool) (A : mat) : Prop :=
  forall i j, (i < n)%nat -> (j < n)%nat ->
    A i j = if Bool.eqb (s i) (s j) then A j i else - A j i.

(** [inv] returned a true inverse of the [n] by [n] matrix [A]
    (np.linalg.inv; it raises LinAlgError for singular input). *)
Definition inv_ok (inv : nat -> mat -> mat) (n : nat) (A : mat) : Prop :=
  is_inv n A (inv n A).

(** Index sets in the grand vector (F, T, S, Fb, DFb) of [Ns] spheres and [Nd]
    dumbbells. *)
Definition rangeb (lo hi i : nat) : bool := (Nat.leb lo i && Nat.ltb i hi)%bool.
Definition none_set (i : nat) : bool := false.
(** strain / stresslet components *)
Definition strain_set (Ns i : nat) : bool := rangeb (6 * Ns) (11 * Ns) i.
(** velocity / force components of the first [nfix] spheres *)
Definition fixed_spheres_set (nfix i : nat) : bool := rangeb 0 (3 * nfix) i.
(** velocity and half-velocity-difference components of the first [nfixd] dumbbells *)
Definition fixed_dumbbells_set (nfixd Ns Nd i : nat) : bool :=
  (rangeb (11 * Ns) (11 * Ns + 3 * nfixd) i
   || rangeb (11 * Ns + 3 * Nd) (11 * Ns + 3 * Nd + 3 * nfixd) i)%bool.
Definition union_set (a b : nat -> bool) (i : nat) : bool := (a i || b i)%bool.
