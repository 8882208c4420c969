(** What the near-field scalars should be close to contact, independently of the
    formulas of the source: the value of a power series in 2/s' whose first
    coefficients are given and whose later ones are replaced by their asymptotic
    form (Jeffrey & Onishi 1984; Jeffrey 1992). *)
From Coq Require Import Reals Arith Bool.
From Verif Require Import Base.
Local Open Scope R_scope.

(** The orders of a series in even (2, 4, ...) or odd (1, 3, ...) powers. *)
Definition order (ev : bool) (j : nat) : nat := if ev then (2 * j + 2)%nat else (2 * j + 1)%nat.
Definition sums_to (ev : bool) (c : nat -> R) (x v : R) : Prop :=
  Un_cv (fun K => rsum K (fun j => c (order ev j) * x ^ order ev j)) v.
(** The series of the functions f_m(lambda) is that of f_m / ((1 + lambda) s')^m. *)
Definition coefficient (F : nat -> R -> R) (lam : R) (m : nat) : R := F m lam / (2 * (1 + lam)) ^ m.
(** The coefficients c up to M, then g1 + 2 g2/m - 4 g3/(m (m + shift)). *)
Definition continued (M : nat) (c : nat -> R) (g1 g2 g3 shift : R) (m : nat) : R :=
  if Nat.leb m M then c m else g1 + 2 * g2 / INR m - 4 * g3 / (INR m * (INR m + shift)).
(** X(xi) is v0 + sign * the series at s' = 2 + xi, up to order xi. *)
Definition expands (ev : bool) (c : nat -> R) (v0 sign : R) (X : R -> R) : Prop :=
  (forall xi, 0 < xi -> exists v, sums_to ev c (2 / (2 + xi)) v) /\
  exists K, forall xi v, 0 < xi <= 1 -> sums_to ev c (2 / (2 + xi)) v -> Rabs (X xi - (v0 + sign * v)) <= K * xi.
