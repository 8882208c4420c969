(** What it means to re-expand a flow about another centre, independently of the
    program.  Near the x axis a scalar of order m is f(x) (y - i z)^m (for m < 0
    the conjugate power of -m) plus higher powers of the distance from the axis;
    f is its axis function.  A solution of Stokes' equations regular at a centre
    is fixed by its pressure, by x.u and by x.(vorticity), x measured from that
    centre; here are the axis functions of these for Lamb's solution. *)
From Coq Require Import Reals ZArith Arith.
From Verif Require Import Base Spec_Reflect.
Local Open Scope R_scope.

(** Axis function of the solid harmonic of degree n and order m with factor H,
    up to a sign depending on m only: H (n+m)!/(2^m m! (n-m)!) x^(n-m). *)
Definition lead (H : nat -> Z -> R) (n : nat) (m : Z) : R :=
  let M := Z.abs_nat m in H n m * INR (fact (n + M)) / (2 ^ M * INR (fact M) * INR (fact (n - M))).
Definition psi (H : nat -> Z -> R) (n : nat) (m : Z) (x : R) : R := lead H n m * x ^ (n - Z.abs_nat m).
(** The same for the harmonic divided by (distance)^(2n+1), and its derivative. *)
Definition phi (H : nat -> Z -> R) (n : nat) (m : Z) (x : R) : R := psi H n m x / Rabs x ^ (2 * n + 1).
Definition dphi (H : nat -> Z -> R) (n : nat) (m : Z) (x : R) : R := - (INR n + INR (Z.abs_nat m) + 1) * phi H n m x / x.

(** Inside: pressure, x.u and x.vorticity of one harmonic with value h at a point
    whose distance from the centre has square q. *)
Definition in_p (F h : R) : R := F * h.
Definition in_xu (n : nat) (D F h q : R) : R := INR n * D * h + F * (INR n / (2 * (2 * INR n + 3))) * q * h.
Definition in_xw (n : nat) (E h : R) : R := INR n * (INR n + 1) * E * h.
(** Outside: also the components along the axis.  [d] is the derivative of h along
    the axis and [t] the rate of change of h on turning about the axis, as they
    occur in B (times B) and C (times C): for the complex coefficients
    B1 + i B2 of (y - i z)^m they are -m h B2 in the real part and m h B1 in the
    imaginary part. *)
Definition out_p (C h : R) : R := C * h.
Definition out_ux (n : nat) (A C h d tB q x : R) : R :=
  A * d + tB + C * (- ((INR n - 2) / (2 * INR n * (2 * INR n - 1))) * q * d + (INR n + 1) / (INR n * (2 * INR n - 1)) * h * x).
Definition out_xu (n : nat) (A C h q : R) : R := - (INR n + 1) * A * h + C * ((INR n + 1) / (2 * (2 * INR n - 1))) * q * h.
Definition out_wx (n : nat) (B d tC : R) : R := - (INR n) * B * d + / INR n * tC.
Definition out_xw (n : nat) (B h : R) : R := INR n * (INR n + 1) * B * h.
(** i m times the complex number (c 1) + i (c 2): part j. *)
Definition turn (j : nat) (m : Z) (c : nat -> R) : R := if Nat.eqb j 1 then - (IZR m * c 2%nat) else IZR m * c 1%nat.
(** The degrees a field of order m has, 1 or |m| to N. *)
Definition lowest (m : Z) : nat := Nat.max 1 (Z.abs_nat m).
Definition degrees (N : nat) (m : Z) (f : nat -> R) : R := rsum (S N - lowest m) (fun q => f (lowest m + q)%nat).

(** Lamb's solution for a harmonic h of any degree l with gradient g. *)
Definition lamb (l a b c h : R) (g x : vec) : vec := fun i =>
  a * g i + b * cross g x i + c * ((l + 3) / (2 * (l + 1) * (2 * l + 3)) * dot3 x x * g i - l / ((l + 1) * (2 * l + 3)) * h * x i).
(** The point x moved by s along coordinate j. *)
Definition moved (x : vec) (j : nat) (s : R) : vec := fun i => x i + s * delta i j.
(** Partial derivatives, by their definition. *)
Definition partial (f : vec -> R) (j : nat) (x : vec) (d : R) : Prop := derivable_pt_lim (fun s => f (moved x j s)) 0 d.
(** curl of a field with derivatives J i j = d u_i / d x_j *)
Definition curl (J : mat) : vec := v3 (J 2%nat 1%nat - J 1%nat 2%nat) (J 0%nat 2%nat - J 2%nat 0%nat) (J 1%nat 0%nat - J 0%nat 1%nat).
(** h is homogeneous of degree l and harmonic, with gradient g and second
    derivatives K, all continuous as far as needed here. *)
Definition harmonic_at (l : R) (h : vec -> R) (g : vec -> vec) (K : vec -> mat) (x : vec) : Prop :=
  (forall j, (j < 3)%nat -> partial h j x (g x j)) /\
  (forall i j, (i < 3)%nat -> (j < 3)%nat -> partial (fun y => g y i) j x (K x i j)) /\
  (forall i j, (i < 3)%nat -> (j < 3)%nat -> K x i j = K x j i) /\ rsum 3 (fun i => K x i i) = 0 /\
  dot3 (g x) x = l * h x /\ (forall i, (i < 3)%nat -> rsum 3 (fun j => K x i j * x j) = (l - 1) * g x i).
