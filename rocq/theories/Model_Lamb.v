(** Model of the reading of Lamb's solution for two spheres.
    Sources: find_resistance_scalars/generate_scalars_midfield.py 68-211
    [find_dim_kim_mobility_scalars] and 370-382, the calls in
    tests/generate_lambs_solution.py 58-104 and their use in tests/test_all.py
    63-80; of helen_fortran/2sphere.f the cases (72-134) and the order of the
    numbers printed (375-380).
    The solution itself (lamb.exe) is an argument: a function from the case to
    the 22 numbers printed. *)
From Coq Require Import Reals List ZArith Arith Bool.
From Verif Require Import Base Model_Mob Model_Scalars.
Import ListNotations.
Local Open Scope R_scope.

(** ** 2sphere.f *)
Inductive case := F11 | F12 | F21 | F22 | T11 | T12 | T21 | T22
  | E11 | E13 | E14 | E21 | E23 | E24 | E1 | E3 | E4.

(** Assignments to entries of arrays that are zero at first (spheres and
    directions counted from 0). *)
Definition put (i j : nat) (x : R) (f : nat -> vec) : nat -> vec :=
  fun p q => if (Nat.eqb p i && Nat.eqb q j)%bool then x else f p q.
Definition put3 (i j k : nat) (x : R) (f : nat -> mat) : nat -> mat :=
  fun p q r => if (Nat.eqb p i && (Nat.eqb q j && Nat.eqb r k))%bool then x else f p q r.
Definition no2 : nat -> vec := fun _ _ => 0.
Definition no3 : nat -> mat := fun _ _ _ => 0.
(** 72-134; scaling(1..3) = 1 (64-66) *)
Definition Ff (c : case) : nat -> vec :=
  match c with
  | F11 => put 0 0 1 no2 | F12 => put 0 1 1 no2 | F21 => put 1 0 1 no2 | F22 => put 1 1 1 no2
  | _ => no2
  end.
Definition Tt (c : case) : nat -> vec :=
  match c with
  | T11 => put 0 0 1 no2 | T12 => put 0 1 1 no2 | T21 => put 1 0 1 no2 | T22 => put 1 1 1 no2
  | _ => no2
  end.
Definition Ee (c : case) : nat -> mat :=
  let half := 1 / 2 in
  let e1 p f := put3 p 2 2 (- half) (put3 p 1 1 (- half) (put3 p 0 0 1 f)) in
  let e3 p f := put3 p 2 1 1 (put3 p 1 2 1 f) in
  let e4 p f := put3 p 1 0 1 (put3 p 0 1 1 f) in
  match c with
  | E11 => e1 0%nat no3 | E13 => e3 0%nat no3 | E14 => e4 0%nat no3
  | E21 => e1 1%nat no3 | E23 => e3 1%nat no3 | E24 => e4 1%nat no3
  | E1 => e1 1%nat (e1 0%nat no3) | E3 => e3 1%nat (e3 0%nat no3) | E4 => e4 1%nat (e4 0%nat no3)
  | _ => no3
  end.
(** 375-380: what is printed *)
Definition short_output (U O : nat -> vec) (S : nat -> mat) : nat -> R :=
  fun k => nth k (flat_map (fun p => [U p 0; U p 1; U p 2; O p 0; O p 1; O p 2; S p 0 0; S p 1 1; S p 0 1; S p 0 2; S p 1 2]%nat) [0; 1]%nat) 0.

(** ** generate_scalars_midfield.py *)
(** 108-133 (the same in tests/generate_lambs_solution.py 59-84) *)
Definition reorder : mat :=
  let rp := 5 / 10 * (1 + sqrt 3) in
  let rm := 5 / 10 * (- (1) + sqrt 3) in
  let r2 := sqrt 2 in
  of_rows [
      [1; 0; 0; 0; 0; 0; 0; 0; 0; 0; 0; 0; 0; 0; 0; 0; 0; 0; 0; 0; 0; 0];
      [0; 1; 0; 0; 0; 0; 0; 0; 0; 0; 0; 0; 0; 0; 0; 0; 0; 0; 0; 0; 0; 0];
      [0; 0; 1; 0; 0; 0; 0; 0; 0; 0; 0; 0; 0; 0; 0; 0; 0; 0; 0; 0; 0; 0];
      [0; 0; 0; 0; 0; 0; 0; 0; 0; 0; 0; 1; 0; 0; 0; 0; 0; 0; 0; 0; 0; 0];
      [0; 0; 0; 0; 0; 0; 0; 0; 0; 0; 0; 0; 1; 0; 0; 0; 0; 0; 0; 0; 0; 0];
      [0; 0; 0; 0; 0; 0; 0; 0; 0; 0; 0; 0; 0; 1; 0; 0; 0; 0; 0; 0; 0; 0];
      [0; 0; 0; 1; 0; 0; 0; 0; 0; 0; 0; 0; 0; 0; 0; 0; 0; 0; 0; 0; 0; 0];
      [0; 0; 0; 0; 1; 0; 0; 0; 0; 0; 0; 0; 0; 0; 0; 0; 0; 0; 0; 0; 0; 0];
      [0; 0; 0; 0; 0; 1; 0; 0; 0; 0; 0; 0; 0; 0; 0; 0; 0; 0; 0; 0; 0; 0];
      [0; 0; 0; 0; 0; 0; 0; 0; 0; 0; 0; 0; 0; 0; 1; 0; 0; 0; 0; 0; 0; 0];
      [0; 0; 0; 0; 0; 0; 0; 0; 0; 0; 0; 0; 0; 0; 0; 1; 0; 0; 0; 0; 0; 0];
      [0; 0; 0; 0; 0; 0; 0; 0; 0; 0; 0; 0; 0; 0; 0; 0; 1; 0; 0; 0; 0; 0];
      [0; 0; 0; 0; 0; 0; rp; rm; 0; 0; 0; 0; 0; 0; 0; 0; 0; 0; 0; 0; 0; 0];
      [0; 0; 0; 0; 0; 0; 0; 0; r2; 0; 0; 0; 0; 0; 0; 0; 0; 0; 0; 0; 0; 0];
      [0; 0; 0; 0; 0; 0; rm; rp; 0; 0; 0; 0; 0; 0; 0; 0; 0; 0; 0; 0; 0; 0];
      [0; 0; 0; 0; 0; 0; 0; 0; 0; r2; 0; 0; 0; 0; 0; 0; 0; 0; 0; 0; 0; 0];
      [0; 0; 0; 0; 0; 0; 0; 0; 0; 0; r2; 0; 0; 0; 0; 0; 0; 0; 0; 0; 0; 0];
      [0; 0; 0; 0; 0; 0; 0; 0; 0; 0; 0; 0; 0; 0; 0; 0; 0; rp; rm; 0; 0; 0];
      [0; 0; 0; 0; 0; 0; 0; 0; 0; 0; 0; 0; 0; 0; 0; 0; 0; 0; 0; r2; 0; 0];
      [0; 0; 0; 0; 0; 0; 0; 0; 0; 0; 0; 0; 0; 0; 0; 0; 0; rm; rp; 0; 0; 0];
      [0; 0; 0; 0; 0; 0; 0; 0; 0; 0; 0; 0; 0; 0; 0; 0; 0; 0; 0; 0; r2; 0];
      [0; 0; 0; 0; 0; 0; 0; 0; 0; 0; 0; 0; 0; 0; 0; 0; 0; 0; 0; 0; 0; r2]].
(** 91-104 *)
Definition cases : list case := [F11; F12; F21; F22; T11; T12; T21; T22; E11; E13; E14; E21; E23; E24].
(** 135: [np.dot(reorder, UOS_output.transpose()).transpose()] *)
Definition reordered (lamb : case -> nat -> R) : mat :=
  fun i k => rsum 22 (fun j => reorder k j * lamb (nth i cases F11) j).
(** 139-211 *)
Definition find_dim_kim_mobility_scalars (lamb : case -> nat -> R) : nat -> R :=
  let u := reordered lamb in
  let x11a := u 0%nat 0%nat in
  let x12a := u 2%nat 0%nat in
  let x21a := u 0%nat 3%nat in
  let x22a := u 2%nat 3%nat in
  let y11a := u 1%nat 1%nat in
  let y12a := u 3%nat 1%nat in
  let y21a := u 1%nat 4%nat in
  let y22a := u 3%nat 4%nat in
  let y11b := u 1%nat 8%nat * - (1) in
  let y12b := u 3%nat 8%nat * - (1) in
  let y21b := u 1%nat 11%nat * - (1) in
  let y22b := u 3%nat 11%nat * - (1) in
  let x11c := u 4%nat 6%nat in
  let x12c := u 6%nat 6%nat in
  let x21c := u 4%nat 9%nat in
  let x22c := u 6%nat 9%nat in
  let y11c := u 5%nat 7%nat in
  let y12c := u 7%nat 7%nat in
  let y21c := u 5%nat 10%nat in
  let y22c := u 7%nat 10%nat in
  let x11g := u 0%nat 12%nat / ((3 + sqrt 3) / 6) in
  let x12g := u 2%nat 12%nat / ((3 + sqrt 3) / 6) in
  let x21g := u 0%nat 17%nat / ((3 + sqrt 3) / 6) in
  let x22g := u 2%nat 17%nat / ((3 + sqrt 3) / 6) in
  let y11g := u 1%nat 13%nat / sqrt 2 in
  let y12g := u 3%nat 13%nat / sqrt 2 in
  let y21g := u 1%nat 18%nat / sqrt 2 in
  let y22g := u 3%nat 18%nat / sqrt 2 in
  let y11h := u 5%nat 15%nat / (- sqrt 2) in
  let y12h := u 7%nat 15%nat / (- sqrt 2) in
  let y21h := u 5%nat 20%nat / (- sqrt 2) in
  let y22h := u 7%nat 20%nat / (- sqrt 2) in
  let x11m := u 8%nat 12%nat / ((3 + sqrt 3) / 4) in
  let x12m := u 11%nat 12%nat / ((3 + sqrt 3) / 4) in
  let x21m := u 8%nat 17%nat / ((3 + sqrt 3) / 4) in
  let x22m := u 11%nat 17%nat / ((3 + sqrt 3) / 4) in
  let y11m := u 10%nat 13%nat / sqrt 2 in
  let y12m := u 13%nat 13%nat / sqrt 2 in
  let y21m := u 10%nat 18%nat / sqrt 2 in
  let y22m := u 13%nat 18%nat / sqrt 2 in
  let z11m := u 9%nat 16%nat / sqrt 2 in
  let z12m := u 12%nat 16%nat / sqrt 2 in
  let z21m := u 9%nat 21%nat / sqrt 2 in
  let z22m := u 12%nat 21%nat / sqrt 2 in
  fun n => nth n [x11a; x12a; x21a; x22a; y11a; y12a; y21a; y22a; y11b; y12b; y21b; y22b; x11c; x12c; x21c; x22c; y11c; y12c; y21c; y22c; x11g; x12g; x21g; x22g; y11g; y12g; y21g; y22g; y11h; y12h; y21h; y22h; x11m; x12m; x21m; x22m; y11m; y12m; y21m; y22m; z11m; z12m; z21m; z22m] 0.

(** 370-382: the pair table of resistance scalars; [lamb s_dash lam] is the
    program run with radii 1 and lam at the separation (1 + lam)/2 s_dash. *)
Definition pair_table (inv : mat -> mat) (lamb : R -> R -> case -> nat -> R) (s_dash_range lam_range : list R) (m si li : nat) : R :=
  let x := find_dim_kim_mobility_scalars (lamb (nth si s_dash_range 0) (nth li lam_range 0)) in
  nondimensionalise_scalars (convert_dim_kim_mobility_to_dim_resistance inv x) resistance_scales m.

(** ** tests/generate_lambs_solution.py *)
(** 86-104: the rows of the file, in order: arguments of lamb.exe (separation,
    radii, case) and the numbers written. *)
Definition s_dash_range : list R := [21 / 10; 39 / 10].
Definition r_range : list (R * R) := [(1, 1); (1, 1 / 10); (1 / 10, 1); (1 / 10, 1 / 10)].
Definition test_cases : list case := [F11; F12; F21; F22; T11; T12; T21; T22; E1; E3; E4].
Definition problems : list (R * R * R * case) :=
  flat_map (fun rs => flat_map (fun s_dash => map (fun c =>
    (5 / 10 * (fst rs + snd rs) * s_dash, fst rs, snd rs, c)) test_cases) s_dash_range) r_range.
Definition written (out : nat -> R) : vec := fun k => rsum 22 (fun j => reorder k j * out j).
(** tests/test_all.py 63-72: row [i] is compared with this setup and input. *)
Definition setup_of_row (i : nat) : Z := (- (1) - Z.of_nat (i / 11))%Z.
Definition input_of_row (i : nat) : Z := (- (1) - Z.of_nat (i mod 11))%Z.
