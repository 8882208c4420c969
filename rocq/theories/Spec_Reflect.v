(** What the method of reflections should solve, independently of the program:
    Lamb's general solution of Stokes' equations (viscosity 1) in solid harmonics,
    the boundary condition on a sphere and the singularities of point forces. *)
From Coq Require Import Reals List ZArith Arith Bool.
From Verif Require Import Base.
Local Open Scope R_scope.

(** A family of solid harmonics: for degree n and order m a real homogeneous
    polynomial and its gradient, [harm 1] being the real and [harm 2] minus the
    imaginary part, so that sum over j of coefficient j times [harm j] is the
    real part of coefficient times harmonic. *)
Record harmonics := mkHarm { hv : nat -> nat -> Z -> vec -> R; hg : nat -> nat -> Z -> vec -> vec }.
(** Lamb's solution inside: one harmonic, coefficients D (gradient), E (rotation),
    F (pressure F h). *)
Definition inside (n : nat) (D E F h : R) (g x : vec) : vec := fun i =>
  D * g i + E * cross g x i
  + F * ((INR n + 3) / (2 * (INR n + 1) * (2 * INR n + 3)) * dot3 x x * g i - INR n / ((INR n + 1) * (2 * INR n + 3)) * h * x i).
(** Outside: the same with degree -(n+1), for the harmonic h / r^(2n+1), whose
    gradient is g / r^(2n+1) - (2n+1) h x / r^(2n+3); pressure C h / r^(2n+1). *)
Definition far_grad (n : nat) (r h : R) (g x : vec) : vec := fun i =>
  g i / r ^ (2 * n + 1) - (2 * INR n + 1) * h * x i / r ^ (2 * n + 3).
Definition outside (n : nat) (A B C r h : R) (g x : vec) : vec := fun i =>
  A * far_grad n r h g x i + B * cross (far_grad n r h g x) x i
  + C * (- ((INR n - 2) / (2 * INR n * (2 * INR n - 1))) * dot3 x x * far_grad n r h g x i
         + (INR n + 1) / (INR n * (2 * INR n - 1)) * (h / r ^ (2 * n + 1)) * x i).

(** Sums over the real and imaginary parts and the orders of one degree, and over
    the degrees 1..N. *)
Definition orders (n : nat) : list Z := map (fun k => (Z.of_nat k - Z.of_nat n)%Z) (seq 0 (2 * n + 1)).
Definition lsum {X : Type} (l : list X) (f : X -> R) : R := fold_right Rplus 0 (map f l).
Definition degree_sum (n : nat) (f : nat -> Z -> R) : R := lsum (orders n) (fun m => f 1%nat m + f 2%nat m).
Definition lamb_sum (N : nat) (f : nat -> nat -> Z -> R) : R := lsum (seq 1 N) (fun n => degree_sum n (fun j m => f j n m)).

(** The harmonics of degrees 1 and 2 about the x axis, with any factors. *)
Definition first_harmonics (H : nat -> Z -> R) (h : harmonics) : Prop :=
  forall x, let X := x 0%nat in let Y := x 1%nat in let Z := x 2%nat in
  let value n m re im := hv h 1 n m x = H n m * re /\ hv h 2 n m x = - (H n m * im) in
  let grad n m (re im : vec) := forall i, (i < 3)%nat -> hg h 1 n m x i = H n m * re i /\ hg h 2 n m x i = - (H n m * im i) in
  value 1%nat 0%Z X 0 /\ grad 1%nat 0%Z (v3 1 0 0) (v3 0 0 0) /\
  value 1%nat 1%Z (- Y) Z /\ grad 1%nat 1%Z (v3 0 (- (1)) 0) (v3 0 0 1) /\
  value 1%nat (-1)%Z Y Z /\ grad 1%nat (-1)%Z (v3 0 1 0) (v3 0 0 1) /\
  value 2%nat 0%Z (X ^ 2 - (Y ^ 2 + Z ^ 2) / 2) 0 /\ grad 2%nat 0%Z (v3 (2 * X) (- Y) (- Z)) (v3 0 0 0) /\
  value 2%nat 1%Z (- (3 * X * Y)) (3 * X * Z) /\ grad 2%nat 1%Z (v3 (- (3 * Y)) (- (3 * X)) 0) (v3 (3 * Z) 0 (3 * X)) /\
  value 2%nat (-1)%Z (3 * X * Y) (3 * X * Z) /\ grad 2%nat (-1)%Z (v3 (3 * Y) (3 * X) 0) (v3 (3 * Z) 0 (3 * X)) /\
  value 2%nat 2%Z (3 * (Y ^ 2 - Z ^ 2)) (- (6 * Y * Z)) /\ grad 2%nat 2%Z (v3 0 (6 * Y) (- (6 * Z))) (v3 0 (- (6 * Z)) (- (6 * Y))) /\
  value 2%nat (-2)%Z (3 * (Y ^ 2 - Z ^ 2)) (6 * Y * Z) /\ grad 2%nat (-2)%Z (v3 0 (6 * Y) (- (6 * Z))) (v3 0 (6 * Z) (6 * Y)).

(** Velocity at x of a point force, of a point torque and of a symmetric moment
    of forces S (the far field of forces f at points y with sum of y f = S). *)
Definition stokeslet (F x : vec) (r : R) : vec := fun i => (F i / r + dot3 F x * x i / r ^ 3) / (8 * PI).
Definition rotlet (T x : vec) (r : R) : vec := fun i => cross T x i / (8 * PI * r ^ 3).
Definition quadratic (S : mat) (x : vec) : R := rsum 3 (fun i => rsum 3 (fun j => S i j * x i * x j)).
Definition stresslet (S : mat) (x : vec) (r : R) : vec := fun i => 3 * quadratic S x * x i / (8 * PI * r ^ 5).
(** The symmetric traceless matrix with these components (xx, yy, xy, xz, yz). *)
Definition traceless (s : nat -> R) : mat := fun i j =>
  match (i, j) with
  | (0, 0)%nat => s 0%nat | (1, 1)%nat => s 1%nat | (2, 2)%nat => - s 0%nat - s 1%nat
  | (0, 1)%nat | (1, 0)%nat => s 2%nat | (0, 2)%nat | (2, 0)%nat => s 3%nat | (1, 2)%nat | (2, 1)%nat => s 4%nat
  | _ => 0
  end.
(** Rigid motion and straining motion of a surface point. *)
Definition surface (U O : vec) (E : mat) (x : vec) : vec := fun i => U i + cross O x i + rsum 3 (fun k => E i k * x k).
