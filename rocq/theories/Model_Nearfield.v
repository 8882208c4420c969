(** Model of the near-field resistance functions of two spheres.
    Source: find_resistance_scalars/functions_nearfield.py 36-1048 and
            find_resistance_scalars/generate_scalars_nearfield.py 54-109.

    Numbers are real; [@cache] has no effect on the values.  The recurrences call
    themselves with smaller p+q; here they get [fuel] calls, and the definitions
    [Pxa] ... [Vzm] give them enough (Proof_Nearfield1 shows that the equations
    of the source then hold for all n >= 1 and all integers p, q).  Pxa, Pxm (and
    Vxa, Vxm) are the same code but for the value at p = q = 0, so they are one
    definition with that value as an argument; likewise the triples ya, yc, ym.
    The Hurwitz zeta function of scipy is an argument.  The separations and ratios
    read from text files and the rows of the readable table are treated as in
    Model_Table. *)
From Coq Require Import Reals List Arith ZArith Bool.
From Verif Require Import Base.
Import ListNotations.
Local Open Scope R_scope.

(** 37-45 *)
Definition kron (i j : nat) : R := if Nat.eqb i j then 1 else 0.
Fixpoint binom (n k : nat) : nat :=
  match k, n with
  | O, _ => 1
  | S _, O => 0
  | S k', S n' => binom n' k' + binom n' k
  end%nat.

Definition lsum {A} (f : A -> R) (l : list A) : R := fold_right Rplus 0 (map f l).
(** [range(a, b)] and [range(a, b, 2)] *)
Definition range (a b : Z) : list nat := seq (Z.to_nat a) (Z.to_nat (b - a)).
Definition range2 (a b : nat) : list nat := map (fun i => a + 2 * i)%nat (seq 0 ((b - a + 1) / 2)).

Inductive parity := odd | even.
(** 60-63 and 92-95 *)
Definition sumover (par : parity) (N : nat) : list nat :=
  match par with odd => range2 1 N | even => range2 2 (N + 1) end.
(** 49-69 *)
Definition intermediate_sum (f0 : nat -> R -> R) (f1 f2 f3 : R -> R) (par : parity) (lam : R) (N : nat) : R :=
  lsum (fun m => / 2 ^ m * / (1 + lam) ^ m * f0 m lam - f1 lam - 2 * / INR m * f2 lam
                 + 4 * / INR m * / INR (m + 2) * f3 lam) (sumover par N).
(** 72-99 *)
Definition intermediate_sum_no_f0_coeff (f0 : nat -> R -> R) (f1 f2 f3 : R -> R) (par : parity) (lam : R) (N : nat) : R :=
  lsum (fun m => f0 m lam - f1 lam - 2 * / INR m * f2 lam + 4 * / INR m * / INR (m + 2) * f3 lam) (sumover par N).
(** 102-104 *)
Definition Zf (lam : R) : R := 0.

(** ** Recurrences *)
Definition origin (p q : Z) : bool := ((p =? 0) && (q =? 0))%Z.

Section XFamily.
Variable start : nat -> R.
(** 110-133 and 708-731 *)
Fixpoint Px (fuel n : nat) (p q : Z) {struct fuel} : R :=
  match fuel with
  | O => 0
  | S f =>
    if origin p q then start n
    else lsum (fun s => let N := INR n in let S := INR s in let z := Z.of_nat s in let w := Z.of_nat n in
        INR (binom (n + s) n)
        * (N * (2 * N + 1) * (2 * N * S - N - S + 2) / (2 * (N + 1) * (2 * S - 1) * (N + S)) * Px f s (q - z) (p - w + 1)
           - N * (2 * N - 1) / (2 * (N + 1)) * Px f s (q - z) (p - w - 1)
           - N * (4 * N ^ 2 - 1) / (2 * (N + 1) * (2 * S + 1)) * Vx f s (q - z - 2) (p - w + 1)))
      (range 1 (q + 1))
  end
with Vx (fuel n : nat) (p q : Z) {struct fuel} : R :=
  match fuel with
  | O => 0
  | S f =>
    if origin p q then start n
    else Px f n p q - 2 * INR n / ((INR n + 1) * (2 * INR n + 3))
         * lsum (fun s => INR (binom (n + s) n) * Px f s (q - Z.of_nat s) (p - Z.of_nat n - 1)) (range 1 (q + 1))
  end.
End XFamily.

Section YFamily.
Variables start startQ : nat -> R.
(** 214-253, 399-438 and 825-864 *)
Fixpoint Py (fuel n : nat) (p q : Z) {struct fuel} : R :=
  match fuel with
  | O => 0
  | S f =>
    if origin p q then start n
    else lsum (fun s => let N := INR n in let S := INR s in let z := Z.of_nat s in let w := Z.of_nat n in
        INR (binom (n + s) (n + 1))
        * ((2 * N + 1) / (2 * (N + 1)) * (3 * (N + S) - (N * S + 1) * (2 * N * S - S - N + 2)) / (S * (N + S) * (2 * S - 1))
             * Py f s (q - z) (p - w + 1)
           + N * (2 * N - 1) / (2 * (N + 1)) * Py f s (q - z) (p - w - 1)
           + N * (4 * N ^ 2 - 1) / (2 * (N + 1) * (2 * S + 1)) * Vy f s (q - z - 2) (p - w + 1)
           - 2 * (4 * N ^ 2 - 1) / (3 * (N + 1)) * Qy f s (q - z - 1) (p - w + 1)))
      (range 1 (q + 1))
  end
with Qy (fuel n : nat) (p q : Z) {struct fuel} : R :=
  match fuel with
  | O => 0
  | S f =>
    if origin p q then startQ n
    else lsum (fun s => let N := INR n in let S := INR s in
        INR (binom (n + s) (n + 1))
        * (S / (N + 1) * Qy f s (q - Z.of_nat s - 1) (p - Z.of_nat n)
           - 3 / (2 * N * S * (N + 1)) * Py f s (q - Z.of_nat s) (p - Z.of_nat n)))
      (range 1 (q + 1))
  end
with Vy (fuel n : nat) (p q : Z) {struct fuel} : R :=
  match fuel with
  | O => 0
  | S f =>
    if origin p q then start n
    else Py f n p q + 2 * INR n / ((INR n + 1) * (2 * INR n + 3))
         * lsum (fun s => INR (binom (n + s) (n + 1)) * Py f s (q - Z.of_nat s) (p - Z.of_nat n - 1)) (range 1 (q + 1))
  end.
End YFamily.

(** 940-979 *)
Fixpoint Pz (fuel n : nat) (p q : Z) {struct fuel} : R :=
  match fuel with
  | O => 0
  | S f =>
    if origin p q then kron 2 n
    else lsum (fun s => let N := INR n in let S := INR s in let z := Z.of_nat s in let w := Z.of_nat n in
        INR (binom (n + s) (n + 2))
        * (- (2) * (2 * N + 1) * (2 * N - 1) / (N + 1) * Qz f s (q - z - 1) (p - w + 1)
           + N * (2 * N + 1) * (2 * N - 1) / (2 * (N + 1) * (2 * S + 1)) * Vz f s (q - z - 2) (p - w + 1)
           + (2 * N + 1) / (N + 1) * (N * S * (N + S - 2 * N * S - 2) - 4 * (2 * N * S - 4 * S - 4 * N + 2)) / (2 * S * (N + S) * (2 * S - 1))
             * Pz f s (q - z) (p - w + 1)
           + N * (2 * N - 1) / (2 * (N + 1)) * Pz f s (q - z) (p - w - 1)))
      (range 2 (q + 1))
  end
with Qz (fuel n : nat) (p q : Z) {struct fuel} : R :=
  match fuel with
  | O => 0
  | S f =>
    if origin p q then 0
    else lsum (fun s => let N := INR n in let S := INR s in
        INR (binom (n + s) (n + 2))
        * (S / (N + 1) * Qz f s (q - Z.of_nat s - 1) (p - Z.of_nat n)
           - 2 / (N * S * (N + 1)) * Pz f s (q - Z.of_nat s) (p - Z.of_nat n)))
      (range 2 (q + 1))
  end
with Vz (fuel n : nat) (p q : Z) {struct fuel} : R :=
  match fuel with
  | O => 0
  | S f =>
    if origin p q then kron 2 n
    else Pz f n p q + 2 * INR n / ((INR n + 1) * (2 * INR n + 3))
         * lsum (fun s => INR (binom (n + s) (n + 2)) * Pz f s (q - Z.of_nat s) (p - Z.of_nat n - 1)) (range 2 (q + 1))
  end.

(** The functions with their names in the source (109-133, 213-253, 398-438, 707-731,
    824-864, 939-979): the recurrences above with enough fuel. *)
Definition enough (p q : Z) : nat := 2 * Z.to_nat (p + q) + 2.
Definition Pxa n p q := Px (kron 1) (enough p q) n p q.
Definition Pya n p q := Py (kron 1) (fun _ => 0) (enough p q) n p q.
Definition Qya n p q := Qy (kron 1) (fun _ => 0) (enough p q) n p q.
Definition Pyc n p q := Py (fun _ => 0) (kron 1) (enough p q) n p q.
Definition Qyc n p q := Qy (fun _ => 0) (kron 1) (enough p q) n p q.
Definition Pxm n p q := Px (kron 2) (enough p q) n p q.
Definition Pym n p q := Py (kron 2) (fun _ => 0) (enough p q) n p q.
Definition Pzm n p q := Pz (enough p q) n p q.

(** [sum([P(n, k-q, q)*lam**(q+e) for q in range(0, k+1)])] *)
Definition diagonal (P : nat -> Z -> Z -> R) (n k e : nat) (lam : R) : R :=
  lsum (fun q => P n (Z.of_nat k - Z.of_nat q)%Z (Z.of_nat q) * lam ^ (q + e)) (range 0 (Z.of_nat k + 1)).

(** ** XA: 138-207 *)
Definition Fxa (k : nat) (lam : R) : R := 2 ^ k * diagonal Pxa 1 k 0 lam.
Definition G1xa lam := 2 * lam ^ 2 * / (1 + lam) ^ 3.
Definition G2xa lam := 1 / 5 * lam * (1 + 7 * lam + lam ^ 2) * / (1 + lam) ^ 3.
Definition G3xa lam := 1 / 42 * (1 + 18 * lam - 29 * lam ^ 2 + 18 * lam ^ 3 + lam ^ 4) * / (1 + lam) ^ 3.
Definition AX11 lam :=
  let M := 100%nat in
  let truncation_m1_match := G3xa lam * 4 / INR M / INR (M + 2) in
  1 - 1 / 4 * G1xa lam - G3xa lam - truncation_m1_match + intermediate_sum Fxa G1xa G2xa G3xa even lam M.
Definition AX12 lam :=
  - (2) / (1 + lam) * (1 / 4 * G1xa lam + 2 * G2xa lam * ln 2 - 2 * G3xa lam
                       + intermediate_sum Fxa G1xa G2xa G3xa odd lam 100).
Definition X11A xi lam :=
  let xiinv := / xi in G1xa lam * xiinv + G2xa lam * ln xiinv + AX11 lam + G3xa lam * xi * ln xiinv.
Definition X12A xi lam :=
  let xiinv := / xi in
  - (G1xa lam * xiinv + G2xa lam * ln xiinv - 1 / 2 * (1 + lam) * AX12 lam + G3xa lam * xi * ln xiinv).

(** ** YA: 258-316 *)
Definition Fya (k : nat) (lam : R) : R := 2 ^ k * diagonal Pya 1 k 0 lam.
Definition G2ya lam := 4 / 15 * lam * (2 + lam + 2 * lam ^ 2) * / (1 + lam) ^ 3.
Definition G3ya lam := 2 / 375 * (16 - 45 * lam + 58 * lam ^ 2 - 45 * lam ^ 3 + 16 * lam ^ 4) * / (1 + lam) ^ 3.
Definition AY11 lam :=
  let M := 100%nat in
  let truncation_m1_match := G3ya lam * 4 / INR M / INR (M + 2) in
  1 - G3ya lam - truncation_m1_match + intermediate_sum Fya Zf G2ya G3ya even lam M.
Definition AY12 lam :=
  let M := 100%nat in
  let truncation_m1_match := G3ya lam * 4 / INR (M - 1) / INR (M + 1) in
  - (2) / (1 + lam) * (2 * G2ya lam * ln 2 + 2 * G3ya lam - 4 * G3ya lam - truncation_m1_match
                       + intermediate_sum Fya Zf G2ya G3ya odd lam M).
Definition Y11A xi lam :=
  let xiinv := / xi in G2ya lam * ln xiinv + AY11 lam + G3ya lam * xi * ln xiinv.
Definition Y12A xi lam :=
  let xiinv := / xi in - (G2ya lam * ln xiinv - 1 / 2 * (1 + lam) * AY12 lam + G3ya lam * xi * ln xiinv).

(** ** YB: 321-375 *)
Definition Fyb (k : nat) (lam : R) : R := 2 * 2 ^ k * diagonal Qya 1 k 0 lam.
Definition G2yb lam := - (1) / 5 * lam * (4 + lam) * / (1 + lam) ^ 2.
Definition G3yb lam := - (1) / 250 * (32 - 33 * lam + 83 * lam ^ 2 + 43 * lam ^ 3) * / (1 + lam) ^ 2.
Definition BY11 lam :=
  2 * G2yb lam * ln 2 - 2 * G3yb lam + intermediate_sum Fyb Zf G2yb G3yb odd lam 100.
Definition BY12 lam :=
  - (4) / (1 + lam) ^ 2 * (- G3yb lam + intermediate_sum Fyb Zf G2yb G3yb even lam 100).
Definition Y11B xi lam :=
  let xiinv := / xi in G2yb lam * ln xiinv + BY11 lam + G3yb lam * xi * ln xiinv.
Definition Y12B xi lam :=
  let xiinv := / xi in - (G2yb lam * ln xiinv - 1 / 4 * (1 + lam) ^ 2 * BY12 lam + G3yb lam * xi * ln xiinv).

(** ** XC: 380-394 *)
Section XC.
Variable zeta : R -> R -> R.
Definition X11C xi lam :=
  let xiinv := / xi in
  lam ^ 3 / (1 + lam) ^ 3 * zeta 3 (lam / (1 + lam)) - lam ^ 2 / (4 * (1 + lam)) * xi * ln xiinv.
Definition X12C xi lam :=
  let xiinv := / xi in
  - lam ^ 3 / (1 + lam) ^ 3 * zeta 3 1 + lam ^ 2 / (4 * (1 + lam)) * xi * ln xiinv.
End XC.

(** ** YC: 443-508 *)
Definition Fyc (k : nat) (lam : R) : R := 2 ^ k * diagonal Qyc 1 k (k mod 2) lam.
Definition G2yc lam := 2 / 5 * lam * / (1 + lam).
Definition G3yc lam := 1 / 125 * (8 + 6 * lam + 33 * lam ^ 2) * / (1 + lam).
Definition G4yc lam := 1 / 10 * lam ^ 2 * / (1 + lam).
Definition G5yc lam := 1 / 500 * lam * (43 - 24 * lam + 43 * lam ^ 2) * / (1 + lam).
Definition CY11 lam := 1 - G3yc lam + intermediate_sum Fyc Zf G2yc G3yc even lam 100.
Definition CY12 lam :=
  8 / (1 + lam) ^ 3 * (2 * G4yc lam * ln 2 - 2 * G5yc lam + intermediate_sum Fyc Zf G4yc G5yc odd lam 100).
Definition Y11C xi lam :=
  let xiinv := / xi in G2yc lam * ln xiinv + CY11 lam + G3yc lam * xi * ln xiinv.
Definition Y12C xi lam :=
  let xiinv := / xi in G4yc lam * ln xiinv + (1 + lam) ^ 3 / 8 * CY12 lam + G5yc lam * xi * ln xiinv.

(** ** XG: 513-573 *)
Definition Fxg (k : nat) (lam : R) : R := 3 / 4 * 2 ^ k * diagonal Pxa 2 k 0 lam.
Definition G1xg lam := 3 * lam ^ 2 / (1 + lam) ^ 3.
Definition G2xg lam := 3 / 10 * (lam + 12 * lam ^ 2 - 4 * lam ^ 3) / (1 + lam) ^ 3.
Definition G3xg lam := 1 / 140 * (5 + 181 * lam - 453 * lam ^ 2 + 566 * lam ^ 3 - 65 * lam ^ 4) / (1 + lam) ^ 3.
Definition GX11 lam :=
  1 / 4 * G1xg lam + 2 * G2xg lam * ln 2 - 2 * G3xg lam + intermediate_sum Fxg G1xg G2xg G3xg odd lam 100.
Definition GX12 lam :=
  4 / (1 + lam) ^ 2 * (1 / 4 * G1xg lam + G3xg lam - intermediate_sum Fxg G1xg G2xg G3xg even lam 100).
Definition X11G xi lam :=
  let xiinv := / xi in G1xg lam * xiinv + G2xg lam * ln xiinv + GX11 lam + G3xg lam * xi * ln xiinv.
Definition X12G xi lam :=
  let xiinv := / xi in
  - G1xg lam * xiinv - G2xg lam * ln xiinv + 1 / 4 * (1 + lam) ^ 2 * GX12 lam - G3xg lam * xi * ln xiinv.

(** ** YG: 578-633 *)
Definition Fyg (k : nat) (lam : R) : R := 3 / 4 * 2 ^ k * diagonal Pya 2 k 0 lam.
Definition G2yg lam := 1 / 10 * (4 * lam - lam ^ 2 + 7 * lam ^ 3) / (1 + lam) ^ 3.
Definition G3yg lam := 1 / 500 * (32 - 179 * lam + 532 * lam ^ 2 - 356 * lam ^ 3 + 221 * lam ^ 4) / (1 + lam) ^ 3.
Definition GY11 lam := 2 * G2yg lam * ln 2 - 2 * G3yg lam + intermediate_sum Fyg Zf G2yg G3yg odd lam 100.
Definition GY12 lam :=
  4 / (1 + lam) ^ 2 * (G3yg lam - intermediate_sum Fyg Zf G2yg G3yg even lam 100).
Definition Y11G xi lam :=
  let xiinv := / xi in G2yg lam * ln xiinv + GY11 lam + G3yg lam * xi * ln xiinv.
Definition Y12G xi lam :=
  let xiinv := / xi in - G2yg lam * ln xiinv + 1 / 4 * (1 + lam) ^ 2 * GY12 lam - G3yg lam * xi * ln xiinv.

(** ** YH: 638-701 *)
Definition Fyh (k : nat) (lam : R) : R := - (3) / 8 * 2 ^ k * diagonal Pyc 2 k (k mod 2) lam.
Definition G2yh lam := 1 / 10 * (2 * lam - lam ^ 2) / (1 + lam) ^ 2.
Definition G3yh lam := 1 / 500 * (16 - 61 * lam + 180 * lam ^ 2 + 2 * lam ^ 3) / (1 + lam) ^ 2.
Definition G5yh lam := 1 / 20 * (lam ^ 2 + 7 * lam ^ 3) / (1 + lam) ^ 2.
Definition G6yh lam := 1 / 1000 * (43 * lam + 147 * lam ^ 2 - 185 * lam ^ 3 + 221 * lam ^ 4) / (1 + lam) ^ 2.
Definition HY11 lam := - G3yh lam + intermediate_sum Fyh Zf G2yh G3yh even lam 100.
Definition HY12 lam :=
  8 / (1 + lam) ^ 3 * (2 * G5yh lam * ln 2 - 2 * G6yh lam + intermediate_sum Fyh Zf G5yh G6yh odd lam 100).
Definition Y11H xi lam :=
  let xiinv := / xi in G2yh lam * ln xiinv + HY11 lam + G3yh lam * xi * ln xiinv.
Definition Y12H xi lam :=
  let xiinv := / xi in G5yh lam * ln xiinv + (1 + lam) ^ 3 / 8 * HY12 lam + G6yh lam * xi * ln xiinv.

(** ** XM: 736-818 *)
Definition Fxm (k : nat) (lam : R) : R := 2 ^ k * diagonal Pxm 2 k (k mod 2) lam.
Definition G1xm lam := 6 / 5 * lam ^ 2 / (1 + lam) ^ 3.
Definition G2xm lam := 3 / 25 * (lam + 17 * lam ^ 2 - 9 * lam ^ 3) / (1 + lam) ^ 3.
Definition G3xm lam := 1 / 350 * (5 + 272 * lam - 831 * lam ^ 2 + 1322 * lam ^ 3 - 415 * lam ^ 4) / (1 + lam) ^ 3.
Definition G4xm lam := 6 / 5 * lam ^ 3 / (1 + lam) ^ 3.
Definition G5xm lam := 3 / 25 * (- (4) * lam ^ 2 + 17 * lam ^ 3 - 4 * lam ^ 4) / (1 + lam) ^ 3.
Definition G6xm lam := 1 / 350 * (- (65) * lam + 832 * lam ^ 2 - 1041 * lam ^ 3 + 832 * lam ^ 4 - 65 * lam ^ 5) / (1 + lam) ^ 3.
Definition MX11 lam :=
  - (1) / 4 * G1xm lam - G3xm lam + 1 + intermediate_sum Fxm G1xm G2xm G3xm even lam 100.
Definition MX12 lam :=
  8 / (1 + lam) ^ 3 * (1 / 4 * G4xm lam + 2 * G5xm lam * ln 2 - 2 * G6xm lam
                       + intermediate_sum Fxm G4xm G5xm G6xm odd lam 100).
Definition X11M xi lam :=
  let xiinv := / xi in G1xm lam * xiinv + G2xm lam * ln xiinv + MX11 lam + G3xm lam * xi * ln xiinv.
Definition X12M xi lam :=
  let xiinv := / xi in
  G4xm lam * xiinv + G5xm lam * ln xiinv + 1 / 8 * (1 + lam) ^ 3 * MX12 lam + G6xm lam * xi * ln xiinv.

(** ** YM: 869-934 *)
Definition Fym (k : nat) (lam : R) : R := 2 ^ k * diagonal Pym 2 k (k mod 2) lam.
Definition G2ym lam := 6 / 25 * (lam - lam ^ 2 + 4 * lam ^ 3) / (1 + lam) ^ 3.
Definition G3ym lam := 1 / 625 * (24 - 201 * lam + 882 * lam ^ 2 - 1182 * lam ^ 3 + 591 * lam ^ 4) / (1 + lam) ^ 3.
Definition G5ym lam := 3 / 50 * (7 * lam ^ 2 - 10 * lam ^ 3 + 7 * lam ^ 4) / (1 + lam) ^ 3.
Definition G6ym lam := 3 / 2500 * lam * (221 - 728 * lam + 1902 * lam ^ 2 - 728 * lam ^ 3 + 221 * lam ^ 4) / (1 + lam) ^ 3.
Definition MY11 lam := - G3ym lam + 1 + intermediate_sum Fym Zf G2ym G3ym even lam 130.
Definition MY12 lam :=
  8 / (1 + lam) ^ 3 * (2 * G5ym lam * ln 2 - 2 * G6ym lam + intermediate_sum Fym Zf G5ym G6ym odd lam 130).
Definition Y11M xi lam :=
  let xiinv := / xi in G2ym lam * ln xiinv + MY11 lam + G3ym lam * xi * ln xiinv.
Definition Y12M xi lam :=
  let xiinv := / xi in G5ym lam * ln xiinv + 1 / 8 * (1 + lam) ^ 3 * MY12 lam + G6ym lam * xi * ln xiinv.

(** ** ZM: 984-1048 *)
Definition Fzm (k : nat) (lam : R) : R := 2 ^ k * diagonal Pzm 2 k (k mod 2) lam.
Definition Fzm_with_sum_coeff (k : nat) (lam : R) : R :=
  lsum (fun q => Pzm 2 (Z.of_nat k - Z.of_nat q)%Z (Z.of_nat q) * (lam / (1 + lam)) ^ q * lam ^ (k mod 2) * / (1 + lam) ^ (k - q))
    (range 0 (Z.of_nat k + 1)).
Definition G3zm lam := - (3) / 10 * (lam ^ 2 + lam ^ 4) / (1 + lam) ^ 3.
Definition MZ11 lam :=
  - G3zm lam + 1 + intermediate_sum_no_f0_coeff Fzm_with_sum_coeff Zf Zf G3zm even lam 150.
Definition MZ12 lam :=
  8 / (1 + lam) ^ 3 * (2 * G3zm lam - intermediate_sum_no_f0_coeff Fzm_with_sum_coeff Zf Zf G3zm odd lam 200).
Definition Z11M xi lam := let xiinv := / xi in MZ11 lam + G3zm lam * xi * ln xiinv.
Definition Z12M xi lam := let xiinv := / xi in 1 / 8 * (1 + lam) ^ 3 * MZ12 lam - G3zm lam * xi * ln xiinv.

(** ** The script *)
(** generate_scalars_nearfield.py 63-66 *)
Definition scalar_functions (zeta : R -> R -> R) : list (R -> R -> R) :=
  [X11A; X12A; Y11A; Y12A; Y11B; Y12B; X11C zeta; X12C zeta; Y11C; Y12C;
   X11G; X12G; Y11G; Y12G; Y11H; Y12H; X11M; X12M; Y11M; Y12M; Z11M; Z12M].

(** A table of four indices, as in Model_Scalars; 83-93. *)
Definition table4 := nat -> nat -> nat -> nat -> R.
Definition set4 (t : table4) (i j k l : nat) (x : R) : table4 :=
  fun a b c d => if (Nat.eqb a i && Nat.eqb b j && Nat.eqb c k && Nat.eqb d l)%bool then x else t a b c d.
Definition enumerate {A} (l : list A) : list (nat * A) := combine (seq 0 (length l)) l.
Definition fill_table (fs : list (R -> R -> R)) (s_dash_range lam_range : list R) : table4 :=
  fold_left (fun t '(lam_index, lam) =>
    fold_left (fun t '(s_dash_index, s_dash) =>
      let xi := s_dash - 2 in
      fold_left (fun t '(f_index, f) =>
        let gamma := (f_index mod 2)%nat in
        let general_index := (f_index / 2)%nat in
        set4 t general_index gamma s_dash_index lam_index (f xi lam)) (enumerate fs) t)
      (enumerate s_dash_range) t)
    (enumerate lam_range) (fun _ _ _ _ => 0).
