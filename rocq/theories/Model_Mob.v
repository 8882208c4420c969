(** Model of the far-field pair mobility functions.
    Source: stokesian_dynamics/functions/generate_Minfinity.py 48-264 and
    stokesian_dynamics/functions/shared.py 47-61.
    Floats are real numbers; rounding is not modelled. *)
From Coq Require Import Reals Arith Bool.
From Verif Require Import Base Model_Pack.
Local Open Scope R_scope.

(** shared.py 48-50 [norm] ([x**0.5] is the square root). *)
Definition norm (x : vec) : R := sqrt (x 0%nat ^ 2 + x 1%nat ^ 2 + x 2%nat ^ 2).

(** shared.py 54-61 [levi]. *)
Definition levi (i j k : nat) : R :=
  if (Nat.eqb i j || Nat.eqb j k || Nat.eqb k i)%bool then 0
  else if ((Nat.eqb i 0 && Nat.eqb j 1 && Nat.eqb k 2)
           || (Nat.eqb i 1 && Nat.eqb j 2 && Nat.eqb k 0)
           || (Nat.eqb i 2 && Nat.eqb j 0 && Nat.eqb k 1))%bool then 1
  else -1.

(** generate_Minfinity.py 18-45: [kronmatrix[i][j]] is [delta i j],
    [kronkronmatrix[i][j][k][l]] is [delta i j * delta k l]. *)
Definition kronkron (i j k l : nat) : R := delta i j * delta k l.

(** [sum([f(k,l) for k in range(3) for l in range(3) if cond(k,l)])]: the
    order of the additions is not modelled (it matters only for rounding). *)
Definition lsum2 (cond : nat -> nat -> bool) (f : nat -> nat -> R) : R :=
  rsum 3 (fun k => rsum 3 (fun l => if cond k l then f k l else 0)).

(** [k != l and j != k and j != l] *)
Definition distinct3 (j k l : nat) : bool :=
  (negb (Nat.eqb k l) && negb (Nat.eqb j k) && negb (Nat.eqb j l))%bool.

(** 50-58 [J] *)
Definition J (ri rj : R) (i j : nat) (ss : R) : R := delta i j / ss + ri * rj / ss ^ 3.

(** 86-89 [D_J] *)
Definition D_J (r : vec) (ss : R) (l i j : nat) : R :=
  (- delta i j * r l + delta i l * r j + delta j l * r i) / ss ^ 3
  - 3 * r i * r j * r l / ss ^ 5.

(** 64-76 [R] (called [Rt] here: [R] is the type of reals) *)
Definition Rt (r : vec) (ss : R) (i j : nat) : R :=
  - (1 / 2) * lsum2 (distinct3 j) (fun k l => levi j k l * D_J r ss k i l).

(** 80-82 [K] *)
Definition K (r : vec) (ss : R) (i j k : nat) : R :=
  1 / 2 * (D_J r ss k i j + D_J r ss j i k).

(** 95-107 [DD_J] *)
Definition DD_J (r : vec) (ss : R) (m l i j : nat) : R :=
  (- kronkron i j l m + kronkron i l j m + kronkron j l i m) / ss ^ 3
  - 3 * (- delta i j * r l * r m
         + delta i l * r j * r m
         + delta j l * r i * r m
         + delta i m * r j * r l
         + r i * delta j m * r l
         + r i * r j * delta l m) / ss ^ 5
  + 15 * r i * r j * r l * r m / ss ^ 7.

(** 111-115 [D_R] *)
Definition D_R (r : vec) (ss : R) (l i j : nat) : R :=
  - (1 / 2) * lsum2 (fun m n => (negb (Nat.eqb m n) && negb (Nat.eqb m j) && negb (Nat.eqb n j))%bool)
                    (fun m n => levi j m n * DD_J r ss l m i n).

(** 119-121 [D_K] *)
Definition D_K (r : vec) (ss : R) (l i j k : nat) : R :=
  1 / 2 * (DD_J r ss l k i j + DD_J r ss l j i k).

(** 125-127 [Lap_J] *)
Definition Lap_J (ri rj : R) (i j : nat) (ss : R) : R :=
  2 * delta i j / ss ^ 3 - 6 * ri * rj / ss ^ 5.

(** 133-137 [DLap_J] *)
Definition DLap_J (r : vec) (ss : R) (k i j : nat) : R :=
  (- (6) / ss ^ 5) * (delta i j * r k + delta i k * r j + delta j k * r i)
  + (30 / ss ^ 7) * r i * r j * r k.

(** 141-145 [Lap_R]; the condition repeats [j != k] and omits [j != l] *)
Definition Lap_R (r : vec) (ss : R) (i j : nat) : R :=
  - (1 / 2) * lsum2 (fun k l => (negb (Nat.eqb k l) && negb (Nat.eqb j k) && negb (Nat.eqb j k))%bool)
                    (fun k l => levi j k l * DLap_J r ss k i l).

(** 149-151 [Lap_K] *)
Definition Lap_K (r : vec) (ss : R) (i j k : nat) : R := DLap_J r ss i j k.

(** 157-169 [DLap_K] *)
Definition DLap_K (r : vec) (ss : R) (l i j k : nat) : R :=
  (- (6) / ss ^ 5) * (kronkron i j k l + kronkron i k j l + kronkron j k i l)
  - (210 / ss ^ 9) * r i * r j * r k * r l
  + (30 / ss ^ 7) * (delta i j * r k * r l
                     + delta i k * r j * r l
                     + delta j k * r i * r l
                     + delta i l * r j * r k
                     + delta j l * r i * r k
                     + delta k l * r i * r j).

(** The literal 1e-10. *)
Definition tiny : R := / 10 ^ 10.

(** 173-179 [M11] *)
Definition M11 (ri rj s a1 a2 : R) (i j : nat) (c mu : R) : R :=
  if Rlt_dec tiny s then
    c * (J ri rj i j s + (a1 ^ 2 + a2 ^ 2) / 6 * Lap_J ri rj i j s)
  else delta i j / (6 * PI * mu * a1).

(** 183-188 [M12] *)
Definition M12 (r : vec) (s a1 a2 : R) (i j : nat) (c mu : R) : R :=
  if Rlt_dec tiny s then c * (Rt r s i j + a1 ^ 2 / 6 * Lap_R r s i j) else 0.

(** 192-199 [M13] *)
Definition M13 (r : vec) (s a1 a2 : R) (i j k : nat) (c mu : R) : R :=
  if Rlt_dec tiny s then
    - c * (K r s i j k + (a1 ^ 2 / 6 + a2 ^ 2 / 10) * Lap_K r s i j k)
  else 0.

(** 203-211 [M22] *)
Definition M22 (r : vec) (s a1 a2 : R) (i j : nat) (c mu : R) : R :=
  if Rlt_dec tiny (Rabs (r 0%nat) + Rabs (r 1%nat) + Rabs (r 2%nat)) then
    c * (1 / 2) * lsum2 (distinct3 i) (fun k l => levi i k l * D_R r s k l j)
  else delta i j / (8 * PI * mu * a1 ^ 3).

(** 215-225 [M23] *)
Definition M23 (r : vec) (s a1 a2 : R) (i j k : nat) (c mu : R) : R :=
  if Rlt_dec tiny (Rabs (r 0%nat) + Rabs (r 1%nat) + Rabs (r 2%nat)) then
    c * - (1 / 2) * lsum2 (distinct3 i)
       (fun l m => levi i l m * (D_K r s l m j k + (a2 ^ 2 / 6) * DLap_K r s l m j k))
  else 0.

(** 229-234 [M33] *)
Definition M33 (r : vec) (s a1 a2 : R) (i j k l : nat) (c mu : R) : R :=
  - (1 / 2) * c * ((D_K r s j i k l + D_K r s i j k l)
    + (a1 ^ 2 + a2 ^ 2) / 10 * (DLap_K r s j i k l + DLap_K r s i j k l)).

(** 238-249, 253-264 [con_M13_row], [con_M23_row]: the row as a function of
    the condensed index 0..4. *)
Definition con_row (f : nat -> nat -> R) (m : nat) : R :=
  let A := f 0%nat 0%nat in
  let B := f 1%nat 1%nat in
  match m with
  | 0%nat => hs3p1 * A + hs3m1 * B
  | 1%nat => s2 * f 0%nat 1%nat
  | 2%nat => hs3m1 * A + hs3p1 * B
  | 3%nat => s2 * f 0%nat 2%nat
  | 4%nat => s2 * f 1%nat 2%nat
  | _ => 0
  end.
Definition con_M13_row (r : vec) (s a1 a2 : R) (i : nat) (c mu : R) (m : nat) : R :=
  con_row (fun j k => M13 r s a1 a2 i j k c mu) m.
Definition con_M23_row (r : vec) (s a1 a2 : R) (i : nat) (c mu : R) (m : nat) : R :=
  con_row (fun j k => M23 r s a1 a2 i j k c mu) m.

(** shared.py 21-29 [cond_idx], [cond_E] *)
Definition cond_idx (m : nat) : nat * nat :=
  match m with
  | 0%nat => (0, 0) | 1%nat => (0, 1) | 2%nat => (1, 1) | 3%nat => (0, 2) | _ => (1, 2)
  end%nat.
Definition cond_E : mat := fun i j =>
  match i, j with
  | 0%nat, 0%nat => hs3p1 | 0%nat, 2%nat => hs3m1
  | 1%nat, 1%nat => s2
  | 2%nat, 0%nat => hs3m1 | 2%nat, 2%nat => hs3p1
  | 3%nat, 3%nat => s2
  | 4%nat, 4%nat => s2
  | _, _ => 0
  end.
