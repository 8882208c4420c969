(** Model of the conversion of two-sphere mobility scalars to resistance
    scalars.
    Source: find_resistance_scalars/generate_scalars_midfield.py 214-346.
    A list of 44 scalars is a function of the index: XA YA YB XC YC XG YG YH XM
    YM ZM, four of each (11, 12, 21, 22).  [inv] is np.linalg.inv. *)
From Coq Require Import Reals List Arith Bool.
From Verif Require Import Base.
Import ListNotations.
Local Open Scope R_scope.

(** [np.array] of nested lists *)
Definition of_rows (l : list (list R)) : mat := fun i j => nth j (nth i l []) 0.

Section Convert.
Variable inv : mat -> mat.

Definition convert_dim_kim_mobility_to_dim_resistance (x : nat -> R) : nat -> R :=
  let x11a := x 0%nat in let x12a := x 1%nat in let x21a := x 2%nat in let x22a := x 3%nat in
  let y11a := x 4%nat in let y12a := x 5%nat in let y21a := x 6%nat in let y22a := x 7%nat in
  let y11b := x 8%nat in let y12b := x 9%nat in let y21b := x 10%nat in let y22b := x 11%nat in
  let x11c := x 12%nat in let x12c := x 13%nat in let x21c := x 14%nat in let x22c := x 15%nat in
  let y11c := x 16%nat in let y12c := x 17%nat in let y21c := x 18%nat in let y22c := x 19%nat in
  let x11g := x 20%nat in let x12g := x 21%nat in let x21g := x 22%nat in let x22g := x 23%nat in
  let y11g := x 24%nat in let y12g := x 25%nat in let y21g := x 26%nat in let y22g := x 27%nat in
  let y11h := x 28%nat in let y12h := x 29%nat in let y21h := x 30%nat in let y22h := x 31%nat in
  let x11m := x 32%nat in let x12m := x 33%nat in let x21m := x 34%nat in let x22m := x 35%nat in
  let y11m := x 36%nat in let y12m := x 37%nat in let y21m := x 38%nat in let y22m := x 39%nat in
  let z11m := x 40%nat in let z12m := x 41%nat in let z21m := x 42%nat in let z22m := x 43%nat in
  (* 242-256 *)
  let matrix_xc := of_rows [[x11c; x12c]; [x21c; x22c]] in
  let matrix_xa := of_rows [[x11a; x12a]; [x21a; x22a]] in
  let matrix_xg := of_rows [[x11g; x12g]; [x21g; x22g]] in
  let matrix_xgt := of_rows [[x11g; x21g]; [x12g; x22g]] in
  let matrix_xm := of_rows [[x11m; x12m]; [x21m; x22m]] in
  let matrix_yabc := of_rows [[y11a; y12a; y11b; y21b];
                              [y12a; y22a; y12b; y22b];
                              [y11b; y12b; y11c; y12c];
                              [y21b; y22b; y12c; y22c]] in
  let matrix_ygh := of_rows [[y11g; y21g]; [y12g; y22g]; [- y11h; - y21h]; [- y12h; - y22h]] in
  let matrix_ygt := of_rows [[y11g; y21g]; [y12g; y22g]] in
  let matrix_yht := of_rows [[y11h; y21h]; [y12h; y22h]] in
  let matrix_ym := of_rows [[y11m; y12m]; [y21m; y22m]] in
  (* 258-262 *)
  let matrix_XA := inv matrix_xa in
  let matrix_XC := inv matrix_xc in
  let matrix_XG := mmul 2 matrix_xg matrix_XA in
  let matrix_YABC := inv matrix_yabc in
  let matrix_YGH := mmul 4 matrix_YABC matrix_ygh in
  (* 279-298 *)
  let Y11A := matrix_YABC 0%nat 0%nat in let Y12A := matrix_YABC 0%nat 1%nat in
  let Y21A := matrix_YABC 1%nat 0%nat in let Y22A := matrix_YABC 1%nat 1%nat in
  let Y11B := matrix_YABC 0%nat 2%nat in let Y21B := matrix_YABC 0%nat 3%nat in
  let Y12B := matrix_YABC 1%nat 2%nat in let Y22B := matrix_YABC 1%nat 3%nat in
  let Y11C := matrix_YABC 2%nat 2%nat in let Y12C := matrix_YABC 2%nat 3%nat in
  let Y21C := matrix_YABC 3%nat 2%nat in let Y22C := matrix_YABC 3%nat 3%nat in
  let Y11G := matrix_YGH 0%nat 0%nat in let Y21G := matrix_YGH 0%nat 1%nat in
  let Y12G := matrix_YGH 1%nat 0%nat in let Y22G := matrix_YGH 1%nat 1%nat in
  let Y11H := - matrix_YGH 2%nat 0%nat in let Y21H := - matrix_YGH 2%nat 1%nat in
  let Y12H := - matrix_YGH 3%nat 0%nat in let Y22H := - matrix_YGH 3%nat 1%nat in
  (* 300-305 *)
  let matrix_YG := of_rows [[Y11G; Y12G]; [Y21G; Y22G]] in
  let matrix_YH := of_rows [[Y11H; Y12H]; [Y21H; Y22H]] in
  let matrix_XM := madd matrix_xm (mscal (2 / 3) (mmul 2 matrix_XG matrix_xgt)) in
  let matrix_YM := madd matrix_ym (mscal 2 (madd (mmul 2 matrix_YG matrix_ygt) (mmul 2 matrix_YH matrix_yht))) in
  (* 264-277, 307-331 *)
  fun n => nth n
    [matrix_XA 0%nat 0%nat; matrix_XA 0%nat 1%nat; matrix_XA 1%nat 0%nat; matrix_XA 1%nat 1%nat;
     Y11A; Y12A; Y21A; Y22A;
     Y11B; Y12B; Y21B; Y22B;
     matrix_XC 0%nat 0%nat; matrix_XC 0%nat 1%nat; matrix_XC 1%nat 0%nat; matrix_XC 1%nat 1%nat;
     Y11C; Y12C; Y21C; Y22C;
     matrix_XG 0%nat 0%nat; matrix_XG 0%nat 1%nat; matrix_XG 1%nat 0%nat; matrix_XG 1%nat 1%nat;
     Y11G; Y12G; Y21G; Y22G;
     Y11H; Y12H; Y21H; Y22H;
     matrix_XM 0%nat 0%nat; matrix_XM 0%nat 1%nat; matrix_XM 1%nat 0%nat; matrix_XM 1%nat 1%nat;
     matrix_YM 0%nat 0%nat; matrix_YM 0%nat 1%nat; matrix_YM 1%nat 0%nat; matrix_YM 1%nat 1%nat;
     z11m; z12m; z21m; z22m] 0.
End Convert.

(** 334-346.  (The argument is changed in place; the callers do not use it
    afterwards.) *)
Definition nondimensionalise_scalars (scalars : nat -> R) (scales : list R) : nat -> R :=
  fun n => scalars n / nth (if Nat.ltb n 8 then 0 else if Nat.ltb n 12 then 1 else if Nat.ltb n 20 then 2
                            else if Nat.ltb n 28 then 3 else if Nat.ltb n 32 then 4 else 5)%nat scales 0.
(** 366-368 *)
Definition resistance_scales : list R := [6 * PI; 4 * PI; 8 * PI; 4 * PI; 8 * PI; 20 / 3 * PI].
Definition mobility_scales : list R := [1 / (6 * PI); 1 / (4 * PI); 1 / (8 * PI); 2; 1; 20 / 3 * PI].
