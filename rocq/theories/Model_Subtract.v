(** Model of the preparation of the table of resistance scalars: subtraction of
    the far field of a pair, and choice of the file.
    Sources: find_resistance_scalars/subtract_R2Binfinity_from_scalars.py,
    find_resistance_scalars/subtract_R2Binfinitydrag_from_scalars.py,
    find_resistance_scalars/combine_scalars.py and
    stokesian_dynamics/resistance_scalars/data.py 24-36.
    Reading and writing of files, printing and timing are omitted. *)
From Coq Require Import Reals Arith Bool List.
From Verif Require Import Base Py Model_Pack Model_Mob Model_Minf Model_Table.
Import ListNotations.
Local Open Scope R_scope.

(** subtract_R2Binfinity_from_scalars.py 36-45: spheres of radii 1 and [lam] on
    the x axis (sphere_rotations are omitted). *)
Definition pair_posdata (lam s_dash : R) : posdata :=
  let sizes := fun i => match i with 0%nat => 1 | _ => lam end in
  let s := s_dash * (sizes 0%nat + sizes 1%nat) * (1 / 2) in
  mkPos 2 0 sizes (fun i => match i with 0%nat => v3 0 0 0 | _ => v3 s 0 0 end)
    (fun _ => 0) (fun _ => v3 0 0 0) (fun _ => v3 0 0 0).

(** 49-103: the values subtracted, out of the matrix Rinfinity; [a1] is 1.
    Order of the scalars: XA YA YB XC YC XG YG YH XM YM ZM. *)
Definition extract (Ri : mat) (scalar gamma : nat) : R :=
  let a1 := 1 in
  let scale_A := 6 * PI * a1 in
  let scale_B := 4 * PI * a1 ^ 2 in
  let scale_C := 8 * PI * a1 ^ 3 in
  let scale_G := 4 * PI * a1 ^ 2 in
  let scale_H := 8 * PI * a1 ^ 3 in
  let scale_M := 20 / 3 * PI * a1 ^ 3 in
  let R_ := (sqrt 3 + 3) / 6 in
  let S_ := sqrt 2 in
  let XA0 := Ri 0%nat 0%nat / scale_A in
  let XA1 := Ri 0%nat 3%nat / scale_A in
  let YA0 := Ri 1%nat 1%nat / scale_A in
  let YA1 := Ri 1%nat 4%nat / scale_A in
  let YB0 := Ri 2%nat 7%nat / scale_B in
  let YB1 := Ri 5%nat 7%nat / scale_B in
  let XC0 := Ri 6%nat 6%nat / scale_C in
  let XC1 := Ri 6%nat 9%nat / scale_C in
  let YC0 := Ri 7%nat 7%nat / scale_C in
  let YC1 := Ri 7%nat 10%nat / scale_C in
  let XG0 := Ri 0%nat 12%nat / R_ / scale_G in
  let XG1 := Ri 3%nat 12%nat / R_ / scale_G in
  let YG0 := Ri 1%nat 13%nat / S_ / scale_G in
  let YG1 := Ri 4%nat 13%nat / S_ / scale_G in
  let YH0 := Ri 7%nat 15%nat / - S_ / scale_H in
  let YH1 := Ri 10%nat 15%nat / - S_ / scale_H in
  let YM0 := Ri 13%nat 13%nat / scale_M in
  let YM1 := Ri 13%nat 18%nat / scale_M in
  let ZM0 := Ri 16%nat 16%nat / scale_M in
  let ZM1 := Ri 16%nat 21%nat / scale_M in
  let XM0 := ZM0 - 4 * Ri 14%nat 12%nat / scale_M in
  let XM1 := ZM1 - 4 * Ri 14%nat 17%nat / scale_M in
  match scalar, gamma with
  | 0, 0 => XA0 | 0, 1 => XA1 | 1, 0 => YA0 | 1, 1 => YA1
  | 2, 0 => YB0 | 2, 1 => YB1 | 3, 0 => XC0 | 3, 1 => XC1
  | 4, 0 => YC0 | 4, 1 => YC1 | 5, 0 => XG0 | 5, 1 => XG1
  | 6, 0 => YG0 | 6, 1 => YG1 | 7, 0 => YH0 | 7, 1 => YH1
  | 8, 0 => XM0 | 8, 1 => XM1 | 9, 0 => YM0 | 9, 1 => YM1
  | 10, 0 => ZM0 | 10, 1 => ZM1
  | _, _ => 0%R
  end%nat.

(** 34-103: XYZd_raw.  [raw] is XYZ_raw, [lams] the ratios with reciprocals (28-32,
    as in data.py), [srange] the separations; other entries stay as copied (23).
    [bb] is the setting bead_bead_interactions, [inv] is [np.linalg.inv]; the
    viscosity is that of the default argument. *)
Definition subtract_with (Rinfinity : R -> R -> mat) (lams srange : list R) (raw : nat -> nat -> nat -> nat -> R)
    : nat -> nat -> nat -> nat -> R :=
  fun scalar gamma s_index lam_index =>
    if (Nat.ltb s_index (length srange) && Nat.ltb lam_index (length lams))%bool then
      raw scalar gamma s_index lam_index
      - extract (Rinfinity (nth lam_index lams 0) (nth s_index srange 0)) scalar gamma
    else raw scalar gamma s_index lam_index.
Definition subtract_R2Binfinity (inv : nat -> mat -> mat) (bb : bool) :=
  subtract_with (fun lam s_dash => inv 22%nat (generate_Minfinity bb (pair_posdata lam s_dash) 1)).

(** subtract_R2Binfinitydrag_from_scalars.py 52-58; the rest is as above. *)
Definition Rinfinity_drag (lam s_dash : R) : mat :=
  let a1 := 1 in
  let a2 := lam in
  let diagonal := [a1; a1; a1; a2; a2; a2;
    a1 ^ 3 / (3 / 4); a1 ^ 3 / (3 / 4); a1 ^ 3 / (3 / 4);
    a2 ^ 3 / (3 / 4); a2 ^ 3 / (3 / 4); a2 ^ 3 / (3 / 4);
    a1 ^ 3 / (9 / 10); a1 ^ 3 / (9 / 10); a1 ^ 3 / (9 / 10); a1 ^ 3 / (9 / 10); a1 ^ 3 / (9 / 10);
    a2 ^ 3 / (9 / 10); a2 ^ 3 / (9 / 10); a2 ^ 3 / (9 / 10); a2 ^ 3 / (9 / 10); a2 ^ 3 / (9 / 10)] in
  fun i j => (if Nat.eqb i j then nth i diagonal 0 else 0) * 6 * PI.
Definition subtract_R2Binfinitydrag := subtract_with Rinfinity_drag.

(** data.py 24-29: the table used by the simulation. *)
Inductive table_file := Table_d | Table_d_drag.
Definition scalars_file (use_drag_Minfinity use_drag_R2Binfinity : bool) : table_file :=
  if (negb use_drag_Minfinity || (use_drag_Minfinity && use_drag_R2Binfinity))%bool then Table_d else Table_d_drag.

(** combine_scalars.py 26-33 and 49: separations and table. [near] and [mid] are
    the separations, [rnear] and [rmid] the tables. *)
Definition combined_separations (near mid : list R) : list R := sort (near ++ mid).
Definition combined_table (near : list R) (rnear rmid : nat -> nat -> nat -> nat -> R) : nat -> nat -> nat -> nat -> R :=
  fun scalar gamma s_index lam_index =>
    if Nat.ltb s_index (length near) then rnear scalar gamma s_index lam_index
    else rmid scalar gamma (s_index - length near)%nat lam_index.
(** 64-80, after the table has been saved: [s_dash_range] is a list (31, 34),
    which has no attribute [shape]. *)
Definition human_table (separations : list R) : res unit :=
  match separations with [] => Ok tt | _ :: _ => Raise AttributeError end.
