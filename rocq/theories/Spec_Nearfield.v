(** Two nearly touching spheres: what the lubrication expansions have to satisfy.
    Spheres 0 and 1 of radii [a] and [b] in a fluid of viscosity 1, [d] the unit
    vector from 0 to 1; [xi] is the gap divided by the mean radius. *)
From Coq Require Import Reals Arith List.
From Verif Require Import Base Model_Mob Model_Nearfield Spec_Scalars.
Local Open Scope R_scope.

(** The scalars in the order XA YA YB XC YC XG YG YH XM YM ZM, of a sphere and
    itself (gamma = 0) or the other one (gamma = 1). *)
Definition near (zeta : R -> R -> R) (n gamma : nat) : R -> R -> R :=
  match n, gamma with
  | 0, 0 => X11A | 0, _ => X12A | 1, 0 => Y11A | 1, _ => Y12A | 2, 0 => Y11B | 2, _ => Y12B
  | 3, 0 => X11C zeta | 3, _ => X12C zeta | 4, 0 => Y11C | 4, _ => Y12C
  | 5, 0 => X11G | 5, _ => X12G | 6, 0 => Y11G | 6, _ => Y12G | 7, 0 => Y11H | 7, _ => Y12H
  | 8, 0 => X11M | 8, _ => X12M | 9, 0 => Y11M | 9, _ => Y12M | _, 0 => Z11M | _, _ => Z12M
  end%nat.

(** Jeffrey and Onishi (1984), Jeffrey (1992): units of the scalars of a sphere
    of radius [a]; B and G change sign with the direction. *)
Definition scalar_unit (n : nat) (a : R) : R :=
  match n with
  | 0%nat | 1%nat => 6 * PI * a
  | 2%nat | 5%nat | 6%nat => 4 * PI * a ^ 2
  | 3%nat | 4%nat | 7%nat => 8 * PI * a ^ 3
  | _ => 20 / 3 * PI * a ^ 3
  end.
Definition odd_in_d (n : nat) : R := match n with 2%nat | 5%nat | 6%nat => - (1) | _ => 1 end.

(** Scalars of the pair in the layout of Spec_Scalars. *)
Definition pair_scalars (zeta : R -> R -> R) (a b xi : R) (m : nat) : R :=
  let n := (m / 4)%nat in
  match (m mod 4)%nat with
  | 0%nat => scalar_unit n a * near zeta n 0 xi (b / a)
  | 1%nat => scalar_unit n a * near zeta n 1 xi (b / a)
  | 2%nat => odd_in_d n * scalar_unit n b * near zeta n 1 xi (a / b)
  | _ => odd_in_d n * scalar_unit n b * near zeta n 0 xi (a / b)
  end.

(** Distance of the centres, and their positions around [x0]. *)
Definition centre_distance (a b xi : R) : R := (a + b) * (1 + xi / 2).
Definition centre (d : vec) (r : R) (x0 : vec) (p : nat) : vec :=
  match p with O => x0 | _ => fun i => x0 i + r * d i end.
(** The flow V + w x x + E x. *)
Definition linear_flow (V w : vec) (E : mat) (x : vec) : vec :=
  fun i => V i + cross w x i + rsum 3 (fun j => E i j * x j).

(** Nothing singular at contact: no 1/xi, log(1/xi) or xi log(1/xi). *)
Definition regular (f : R -> R) : Prop :=
  exists c0 c1 c2 c3 c4, forall xi, 0 < xi ->
    f xi = c0 + c1 * xi + c2 * xi ^ 2 + (c3 + c4 * xi) * (xi ^ 2 * ln (/ xi)).

(** Forces, torques and stresslets of the two spheres held in that flow at the
    gap [xi]. *)
Definition held_in_flow (zeta : R -> R -> R) (a b : R) (d V w x0 : vec) (E : mat) (xi : R) (F T : nat -> vec) (S : nat -> mat) : Prop :=
  resistance_law (pair_scalars zeta a b xi) d
    (fun p => linear_flow V w E (centre d (centre_distance a b xi) x0 p)) (fun _ => w) F T (fun _ => E) S.

(** Rate of work of the moments (F, T, S) in the motion (U, O, E). *)
Definition power (F T : nat -> vec) (S : nat -> mat) (U O : nat -> vec) (E : nat -> mat) : R :=
  rsum 2 (fun p => rsum 3 (fun i => F p i * U p i) + rsum 3 (fun i => T p i * O p i) + rsum 3 (fun i => rsum 3 (fun j => S p i j * E p i j))).

(** The families that relate moments of a kind to motions of the same kind: A, C
    and M. *)
Definition reciprocal_family (n : nat) : Prop := (n = 0 \/ n = 1 \/ n = 3 \/ n = 4 \/ n = 8 \/ n = 9 \/ n = 10)%nat.
(** Power of the radius in the unit of family [n]. *)
Definition radius_power (n : nat) : nat := match n with 0 | 1 => 1 | _ => 3 end%nat.

(** Jeffrey and Onishi (1984), (3.22), (4.17), (4.18): the sums as published,
    with m1 = -2 for m = 2 and m - 2 otherwise. *)
Definition m1 (m : nat) : R := if Nat.eqb m 2 then - (2) else INR m - 2.
Definition original_sum (f0 : nat -> R -> R) (f1 f2 f3 : R -> R) (lam : R) (ms : list nat) : R :=
  fold_right Rplus 0 (map (fun m => / 2 ^ m * / (1 + lam) ^ m * f0 m lam - f1 lam - 2 * / INR m * f2 lam + 4 * / (INR m * m1 m) * f3 lam) ms).
(** 2, 4, ..., 2 K and 1, 3, ..., 2 K - 1 *)
Definition evens (K : nat) : list nat := map (fun i => 2 + 2 * i)%nat (seq 0 K).
Definition odds (K : nat) : list nat := map (fun i => 1 + 2 * i)%nat (seq 0 K).

(** The scalars with [corr] added to Y12M. *)
Definition corrected_scalars (corr : R -> R -> R) (zeta : R -> R -> R) (a b xi : R) (m : nat) : R :=
  match m with
  | 37%nat => scalar_unit 9 a * (near zeta 9 1 xi (b / a) + corr xi (b / a))
  | 38%nat => scalar_unit 9 b * (near zeta 9 1 xi (a / b) + corr xi (a / b))
  | _ => pair_scalars zeta a b xi m
  end.
