(** Reflections between two spheres whose motion is given, independently of the
    near-field recurrences: a flow leaving one sphere is re-expanded about the
    other one and cancelled on its surface, and so on. *)
From Coq Require Import Reals ZArith Arith.
From Verif Require Import Base Model_Mob Model_Reflect Spec_Reflect Spec_Translate.
Local Open Scope R_scope.

(** The outgoing flow A, B, C of degree n cancels the arriving flow D, E, F on the
    sphere of radius a (for every harmonic of degree n). *)
Definition cancels (n : nat) (a A B C D E F : R) : Prop :=
  forall (h : R) (g x : vec) i, (i < 3)%nat -> dot3 x x = a ^ 2 -> outside n A B C a h g x i + inside n D E F h g x i = 0.
(** f' leaves a sphere of radius a at distance r (signed, along x) from the sphere
    that f leaves, and cancels f there, in order m and up to degree N.  The
    re-expansion is that of the Fortran program, which C76 is about. *)
Definition reflected (N : nat) (m : Z) (a r : R) (f f' : six) : Prop :=
  forall j n, (j = 1 \/ j = 2)%nat -> (lowest m <= n <= N)%nat ->
  cancels n a (cA f' j n m) (cB f' j n m) (cC f' j n m) (translate_D N r f j n m) (translate_E N r f j n m) (translate_F N r f j n m).

(** Spheres 1 and 2 in turn *)
Definition side (k : nat) (x y : R) : R := if Nat.even k then x else y.
(** A flow leaving a sphere of radius b, in the units of the near-field
    coefficients: pressure C is P, A is V, and B (in the other part of the complex
    number) is Q.  Sphere 2 is seen in the mirror: the x axis points backwards. *)
Definition mirror (k n : nat) (m : Z) : R :=
  if Nat.even k then 1 else (if Z.eqb m 0 then 1 else - (1)) * (- (1)) ^ (n + Z.abs_nat m).
Definition unit_Q (m : Z) : R := if Z.eqb (Z.abs m) 2 then 1 else 2 / 3.
Definition carries (N : nat) (m : Z) (j : nat) (kappa : R) (k : nat) (b : R) (P V Q : nat -> R) (f : six) : Prop :=
  forall n, (lowest m <= n <= N)%nat ->
  cC f j n m * H n m = kappa * mirror k n m * b ^ n * P n /\
  cA f j n m * H n m = kappa * mirror k n m * b ^ (n + 2) * V n / (2 * (2 * INR n + 1)) /\
  cB f (other j) n m * H n m = - (part_sign j * IZR (Z.sgn m) * side k 1 (- (1)) * unit_Q m * kappa * mirror k n m * b ^ (n + 1) * Q n).
(** A polynomial of degree at most K in x and in y. *)
Definition poly (K : nat) (c : Z -> Z -> R) (x y : R) : R :=
  rsum (S K) (fun p => rsum (S K) (fun q => c (Z.of_nat p) (Z.of_nat q) * x ^ p * y ^ q)).

(** The coefficients wP, wV, wQ (k-th reflection, degree n, powers p and q of the
    radii over the distance) are those of all reflections of a flow that leaves
    sphere 1 with stP, stP, stQ: whatever the radii a, b and the distance d, the
    k-th reflected flow leaves sphere 1 (k even) or sphere 2 (k odd) with the
    polynomials in own radius / d and other radius / d made of them. *)
Definition reflections (N : nat) (m : Z) (stP stQ : nat -> R) (B : nat -> nat) (wP wV wQ : nat -> nat -> Z -> Z -> R) : Prop :=
  forall (j : nat) (kappa a b d : R) (f : nat -> six), (j = 1 \/ j = 2)%nat -> 0 < a -> 0 < b -> 0 < d ->
  carries N m j kappa 0 a stP stP stQ (f 0%nat) ->
  (forall k, reflected N m (side (S k) a b) (side k d (- d)) (f k) (f (S k))) ->
  forall k, let x := side k a b / d in let y := side (S k) a b / d in
  carries N m j kappa k (side k a b) (fun n => poly (B k) (wP k n) x y) (fun n => poly (B k) (wV k n) x y) (fun n => poly (B k) (wQ k n) x y) (f k).
(** P is the sum of all reflections, at each power; no reflection later than the
    (p+q)-th one contributes, and only every second one (those that reach the same
    sphere) does. *)
Definition collects (N : nat) (e : bool) (P : nat -> Z -> Z -> R) (w : nat -> nat -> Z -> Z -> R) : Prop :=
  forall n p q, (1 <= n)%nat -> (p + q <= Z.of_nat N)%Z ->
  P n p q = rsum (S (Z.to_nat (p + q))) (fun k => w k n p q) /\
  forall k, (p + q < Z.of_nat k)%Z \/ Z.odd (p + q + Z.of_nat n + Z.of_nat k) <> e -> w k n p q = 0.
