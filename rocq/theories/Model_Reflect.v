(** Model of the method of reflections for two spheres.
    Source: find_resistance_scalars/helen_fortran/ 2sphere.f, reflect.f, base.f,
    parameters.f.

    Indices as in the program: real and imaginary part j = 1, 2; spheres 1, 2;
    levels 1 to 5; degree n; order m (an integer).  Simplified: rounding (all
    numbers are reals); the truncation NN(1,2) = NN(2,1) = Neach(i) is N, given
    by [Set_N]; the arrays are zero at first also for n = 0, which the program
    leaves undefined and never uses; radius**real is a power with a natural
    exponent; a STOP is [None]. *)
From Coq Require Import Reals List ZArith Arith Bool.
From Verif Require Import Base Model_Mob Model_Close.
Import ListNotations.
Local Open Scope R_scope.

Definition coef := nat -> nat -> Z -> R.
Record six := mkSix { cA : coef; cB : coef; cC : coef; cD : coef; cE : coef; cF : coef }.
Definition arrays := nat -> nat -> six.
Definition zero_coef : coef := fun _ _ _ => 0.
Definition zero_six : six := mkSix zero_coef zero_coef zero_coef zero_coef zero_coef zero_coef.
Definition store (k l : nat) (v : six) (s : arrays) : arrays :=
  fun k' l' => if (Nat.eqb k' k && Nat.eqb l' l)%bool then v else s k' l'.

(** The loops over m: -n .. n *)
Definition order_ok (n : nat) (m : Z) : bool := (Z.abs m <=? Z.of_nat n)%Z.
(** Loops over n = lo .. hi and m = -n .. n *)
Definition within (lo hi n : nat) (m : Z) : bool := (Nat.leb lo n && Nat.leb n hi && order_ok n m)%bool.
Definition on_range (b : nat -> Z -> bool) (new old : coef) : coef := fun j n m => if b n m then new j n m else old j n m.
Definition six_map (f : coef -> coef) (s : six) : six := mkSix (f (cA s)) (f (cB s)) (f (cC s)) (f (cD s)) (f (cE s)) (f (cF s)).
Definition c_add (x y : coef) : coef := fun j n m => x j n m + y j n m.

(** ** base.f *)
(** 29-64 [Fill_G]: g(nu,n,m), |m| = n - d, by both recurrences *)
Fixpoint g_down (nu n d : nat) : R :=
  match d with
  | O => 1
  | S d' => (INR nu + INR (n - d) + 1) * g_down nu n d' / (0 + INR n - INR (n - d))
  end.
Fixpoint g_zero (nu n : nat) : R :=
  match n with O => 1 | S n' => g_zero nu n' * (INR nu + INR n) / (0 + INR n) end.
Fixpoint g_up (nu n d : nat) : R :=
  match d with
  | O => 1
  | S O => (INR nu + INR n) * 1
  | S d' => (INR nu - (- INR n + INR d')) * g_up nu n d' / (INR n + (- INR n + INR d') + 1)
  end.
Definition g (nu n : nat) (m : Z) : R :=
  match m with
  | Z0 => g_zero nu n
  | Zpos p => if Nat.leb (Pos.to_nat p) n then g_down nu n (n - Pos.to_nat p) else 0
  | Zneg p => if Nat.leb (Pos.to_nat p) n then g_up nu n (n - Pos.to_nat p) else 0
  end.
(** 18-23 *)
Definition root (i : nat) : R := sqrt (0 + INR i).
Fixpoint fact_root (i : nat) : R := match i with O => 1 | S i' => root i * fact_root i' end.
(** 66-83: FracH(n,nu,m) for nu = n - d and nu = n + d *)
Fixpoint FracH_down (im n d : nat) : R :=
  match d with
  | O => 1
  | S d' => let nu := (n - d)%nat in root (2 * nu + 3) * root (nu - im + 1) * FracH_down im n d' / (root (2 * nu + 1) * root (nu + im + 1))
  end.
Fixpoint FracH_up (im n d : nat) : R :=
  match d with
  | O => 1
  | S d' => let nu := (n + d)%nat in root (2 * nu - 1) * root (nu + im) * FracH_up im n d' / (root (2 * nu + 1) * root (nu - im))
  end.
Definition FracH (n nu : nat) (m : Z) : R :=
  let im := Z.abs_nat m in if Nat.leb nu n then FracH_down im n (n - nu) else FracH_up im n (nu - n).
(** 89-112 *)
Definition H (n : nat) (m : Z) : R :=
  let im := Z.abs_nat m in root (2 * n + 1) * fact_root (n - im) / fact_root (n + im) / (2 * sqrt PI).
(** 137-170 [Set_N]; parameters.f 5: Nmax = 120, NFUDGE is true.  [int]
    truncates towards zero. *)
Definition Nmax : nat := 120.
Definition globalerror : R := / 10 ^ 8.
Definition int (x : R) : Z := if Rleb 0 x then Int_part x else (- Int_part (- x))%Z.
Definition Set_N (radius : nat -> R) (s : R) : Z :=
  let zeta := 2 * Rabs s / (radius 1%nat + radius 2%nat) in
  let q := 5 / 10 * (zeta - sqrt (zeta ^ 2 - 4)) in
  let NN := (int (ln globalerror / ln q) + 1)%Z in
  if (Z.of_nat Nmax <? NN)%Z then Z.of_nat Nmax else NN.

(** ** reflect.f *)
(** 3-51 [Invert_field(k)] *)
Definition invert_A (a : R) (n : nat) (d f : R) : R :=
  INR n * a ^ (2 * n + 1) / (4 * (INR n + 1) * (2 * INR n + 3)) *
    (2 * (2 * INR n - 1) * (2 * INR n + 3) * d + (2 * INR n + 1) * a ^ 2 * f).
Definition invert_C (a : R) (n : nat) (d f : R) : R :=
  INR n * (2 * INR n - 1) * a ^ (2 * n - 1) / (2 * (INR n + 1)) * (2 * (2 * INR n + 1) * d + a ^ 2 * f).
Definition Invert_field (N : nat) (a : R) (k : nat) (s : arrays) : arrays :=
  let l3 := s k 3%nat in
  let l2 := s k 2%nat in
  let one n m := within 1 1 n m in
  let rest n m := within 2 N n m in
  let both n m := (one n m || rest n m)%bool in
  let A' := on_range one (fun j n m => cA l3 j n m - a ^ 5 * cF l3 j n m / 30) (cA l3) in
  store k 3 (mkSix
      (on_range rest (fun j n m => A' j n m - invert_A a n (cD l3 j n m) (cF l3 j n m)) A')
      (on_range rest (fun j n m => cB l3 j n m - a ^ (2 * n + 1) * cE l3 j n m) (cB l3))
      (on_range rest (fun j n m => cC l3 j n m - invert_C a n (cD l3 j n m) (cF l3 j n m)) (cC l3))
      (cD l3) (cE l3) (cF l3))
   (store k 2 (mkSix (cA l2) (cB l2) (cC l2)
      (on_range both (c_add (cD l2) (cD l3)) (cD l2))
      (on_range both (c_add (cE l2) (cE l3)) (cE l2))
      (on_range both (c_add (cF l2) (cF l3)) (cF l2))) s).

(** 55-137 [Translate_field(i,j)], r = r(i,j): what is put in D, E, F(j,3+i) *)
Definition tsum (lo hi : nat) (f : nat -> R) : R := rsum (S hi - lo) (fun q => f (lo + q)%nat).
Definition sign_of (r : R) : R := if Rltb r 0 then 1 else - (1).
Definition power_m (x : R) (n : nat) (m : Z) : R := x ^ (Z.abs_nat (Z.of_nat n + m)).
Definition translate_weight (r : R) (nu n : nat) (m : Z) : R :=
  power_m (- (1)) n m * sign_of r ^ (n + nu) * FracH n nu m / Rabs r ^ (n + nu + 1).
Definition translate_C (r : R) (nu n : nat) (m : Z) (c : R) : R :=
  (g (nu - 1) n m * (INR nu - IZR (Z.abs m)) * ((INR nu - 1) * (INR n - 2) - (INR n + 1)) / (INR nu * (2 * INR nu - 1))
   - g nu n m * (INR n - 2) / 2) * Rabs r ^ 2 * c / (INR n * (2 * INR n - 1)).
Definition ninit (m : Z) : nat := if (m =? 0)%Z then 1%nat else Z.abs_nat m.
Definition other (j : nat) : nat := if Nat.eqb j 1 then 2%nat else 1%nat.
(** the sign of the terms with the other part of the complex number *)
Definition part_sign (j : nat) : R := if Nat.eqb j 1 then 1 else - (1).
Definition translate_D (N : nat) (r : R) (f : six) : coef := fun j nu m =>
  tsum (ninit m) N (fun n => translate_weight r nu n m *
    (g nu n m * cA f j n m + part_sign j * (IZR m * g nu n m * r * cB f (other j) n m / INR nu) + translate_C r nu n m (cC f j n m))).
Definition translate_E (N : nat) (r : R) (f : six) : coef := fun j nu m =>
  tsum (ninit m) N (fun n => translate_weight r nu n m * g nu n m *
    (- (INR n / (1 + INR nu)) * cB f j n m + part_sign j * (IZR m * r * cC f (other j) n m / ((1 + INR nu) * INR n * INR nu)))).
Definition translate_F (N : nat) (r : R) (f : six) : coef := fun j nu m =>
  tsum (ninit m) N (fun n => translate_weight r nu n m * g nu n m * cC f j n m).
Definition Translate_field (N : nat) (r : nat -> nat -> R) (i j : nat) (s : arrays) : arrays :=
  let f := s i (3 + j)%nat in
  let o := s j (3 + i)%nat in
  let b n m := within 1 N n m in
  store j (3 + i) (mkSix (cA o) (cB o) (cC o)
    (on_range b (translate_D N (r i j) f) (cD o))
    (on_range b (translate_E N (r i j) f) (cE o))
    (on_range b (translate_F N (r i j) f) (cF o))) s.

(** ** 2sphere.f *)
(** 202-217 *)
Definition Rotate_field (N i k : nat) (s : arrays) : arrays :=
  let f := s i 2%nat in
  let o := s i (3 + k)%nat in
  let b n m := within 0 N n m in
  store i (3 + k) (mkSix (on_range b (cA f) (cA o)) (on_range b (cB f) (cB o)) (on_range b (cC f) (cC o)) (cD o) (cE o) (cF o)) s.
(** 522-538 *)
Definition Rotate_arrival (N k i : nat) (s : arrays) : arrays :=
  let f := s k (3 + i)%nat in
  let o := s k 3%nat in
  let b n m := within 0 N n m in
  store k 3 (mkSix (cA o) (cB o) (cC o) (on_range b (cD f) (cD o)) (on_range b (cE f) (cE o)) (on_range b (cF f) (cF o))) s.
(** base.f 181-219 [Update_Fields(i)] *)
Definition Update_Fields (N i : nat) (s : arrays) : arrays :=
  let b n m := within 0 N n m in
  let s1 := s i 1%nat in
  let s2 := s i 2%nat in
  let s3 := s i 3%nat in
  let plus x y := on_range b (c_add x y) x in
  let move x y := on_range b x y in
  let clear x := on_range b zero_coef x in
  store i 1 (mkSix (plus (cA s1) (cA s2)) (plus (cB s1) (cB s2)) (plus (cC s1) (cC s2)) (plus (cD s1) (cD s2)) (plus (cE s1) (cE s2)) (plus (cF s1) (cF s2)))
 (store i 2 (mkSix (move (cA s3) (cA s2)) (move (cB s3) (cB s2)) (move (cC s3) (cC s2)) (clear (cD s2)) (clear (cE s2)) (clear (cF s2)))
 (store i 3 (mkSix (clear (cA s3)) (clear (cB s3)) (clear (cC s3)) (cD s3) (cE s3) (cF s3)) s)).

(** 221-339 [Set_Initial_Conditions]; parameters.f: xg_sign = -1, here an argument *)
Definition xg_sign : R := - (1).
Definition at1 (c0 c1 s1 : R) : coef := fun j n m =>
  if Nat.eqb n 1 then
    match j, m with
    | 1%nat, 0%Z => c0
    | 1%nat, 1%Z => - c1
    | 1%nat, (-1)%Z => c1
    | 2%nat, 1%Z => - s1
    | 2%nat, (-1)%Z => - s1
    | _, _ => 0
    end
  else 0.
Definition initial_C (F : vec) : coef := at1 (F 0%nat / (4 * H 1 0 * PI)) (F 1%nat / (8 * H 1 1 * PI)) (F 2%nat / (8 * H 1 1 * PI)).
Definition initial_A (a : R) (F : vec) : coef := fun j n m =>
  if within 1 1 n m then initial_C F j n m * a ^ 2 / 6 else 0.
Definition initial_B (T : vec) : coef := at1 (T 0%nat / (8 * H 1 0 * PI)) (T 1%nat / (16 * H 1 1 * PI)) (T 2%nat / (16 * H 1 1 * PI)).
Definition initial_D (xg : R) (E : mat) : coef := fun j n m =>
  if Nat.eqb n 2 then
    match j, m with
    | 1%nat, 0%Z => E 0%nat 0%nat / H 2 0 * xg
    | 1%nat, 1%Z => E 0%nat 1%nat / (3 * H 2 1)
    | 1%nat, (-1)%Z => - E 0%nat 1%nat / (3 * H 2 1)
    | 2%nat, 1%Z => E 0%nat 2%nat / (3 * H 2 1)
    | 2%nat, (-1)%Z => E 0%nat 2%nat / (3 * H 2 1)
    | 1%nat, 2%Z => (2 * E 1%nat 1%nat + E 0%nat 0%nat) / (12 * H 2 2) * xg
    | 1%nat, (-2)%Z => (2 * E 1%nat 1%nat + E 0%nat 0%nat) / (12 * H 2 2) * xg
    | 2%nat, 2%Z => - E 1%nat 2%nat / (6 * H 2 2)
    | 2%nat, (-2)%Z => E 1%nat 2%nat / (6 * H 2 2)
    | _, _ => 0
    end
  else 0.
Definition strain_ok (E : mat) : bool :=
  (Rleb (Rabs (E 0%nat 0%nat + E 1%nat 1%nat + E 2%nat 2%nat)) (/ 10 ^ 5) &&
   Rleb (Rabs ((E 0%nat 1%nat - E 1%nat 0%nat) ^ 2 + (E 0%nat 2%nat - E 2%nat 0%nat) ^ 2 + (E 2%nat 1%nat - E 1%nat 2%nat) ^ 2)) (/ 10 ^ 5))%bool.
(** 306-337 for sphere i *)
Definition initial_strain (N : nat) (a xg : R) (E : mat) (i : nat) (s : arrays) : arrays :=
  let l3 := s i 3%nat in
  let b n m := within 2 2 n m in
  let s' := store i 3 (mkSix (cA l3) (cB l3) (cC l3) (on_range b (fun j n m => 5 / 10 * initial_D xg E j n m) (cD l3)) (cE l3) (cF l3)) s in
  let t := Invert_field N a i s' in
  let t2 := t i 2%nat in
  let t3 := t i 3%nat in
  store i 2 (mkSix (on_range b (cA t3) (cA t2)) (on_range b (cB t3) (cB t2)) (on_range b (cC t3) (cC t2)) (cD t2) (cE t2) (cF t2))
 (store i 3 (mkSix (on_range b zero_coef (cA t3)) (on_range b zero_coef (cB t3)) (on_range b zero_coef (cC t3)) (cD t3) (cE t3) (cF t3)) t).
Definition initial_force (a : R) (F T : vec) (i : nat) (s : arrays) : arrays :=
  let l2 := s i 2%nat in
  store i 2 (mkSix (initial_A a F) (initial_B T) (initial_C F) (cD l2) (cE l2) (cF l2)) s.
Definition Set_Initial_Conditions (N : nat) (radius : nat -> R) (xg : R) (Ff Tt : nat -> vec) (Ee : nat -> mat) : option arrays :=
  if (strain_ok (Ee 1%nat) && strain_ok (Ee 2%nat))%bool then
    Some (initial_strain N (radius 2%nat) xg (Ee 2%nat) 2
           (initial_strain N (radius 1%nat) xg (Ee 1%nat) 1
             (initial_force (radius 2%nat) (Ff 2%nat) (Tt 2%nat) 2
               (initial_force (radius 1%nat) (Ff 1%nat) (Tt 1%nat) 1 (fun _ _ => zero_six)))))
  else None.

(** 160-176: one pass of the loop, without the error *)
Definition reflect_to (N : nat) (radius : nat -> R) (r : nat -> nat -> R) (i k : nat) (s : arrays) : arrays :=
  Invert_field N (radius k) k (Rotate_arrival N k i (Translate_field N r i k (Rotate_field N i k s))).
Definition reflect (N : nat) (radius : nat -> R) (r : nat -> nat -> R) (s : arrays) : arrays :=
  reflect_to N radius r 2 1 (reflect_to N radius r 1 2 s).
Definition update (N : nat) (s : arrays) : arrays := Update_Fields N 2 (Update_Fields N 1 s).
Definition pass (N : nat) (radius : nat -> R) (r : nat -> nat -> R) (s : arrays) : arrays := update N (reflect N radius r s).

(** 455-459, base.f 248-255: from the coefficients of degree 1 *)
Definition velocity_V (a : R) (f : six) (j : nat) (m : Z) : R :=
  H 1 m * (- (5) * cA f j 1%nat m / a ^ 3 + 15 / 10 * cC f j 1%nat m / a + cD f j 1%nat m).
Definition rotation_V (a : R) (f : six) (j : nat) (m : Z) : R := H 1 m * (cB f j 1%nat m / a ^ 3 + cE f j 1%nat m).
(** 462-464 *)
Definition stress_V (a : R) (f : six) (j : nat) (m : Z) : R :=
  H 2 m * (4 * PI * a ^ 3 / 15) * (20 * cD f j 2%nat m - 3 * cC f j 2%nat m / a ^ 3 + 2 * a ^ 2 * cF f j 2%nat m).
(** 471-482: real and imaginary part of a vector *)
Definition vec_re (V : nat -> Z -> R) : vec := v3 (V 1%nat 0%Z) (V 1%nat (-1)%Z - V 1%nat 1%Z) (- V 2%nat 1%Z - V 2%nat (-1)%Z).
Definition vec_im (V : nat -> Z -> R) : vec := v3 (V 2%nat 0%Z) (V 2%nat (-1)%Z - V 2%nat 1%Z) (V 1%nat 1%Z + V 1%nat (-1)%Z).
(** base.f 223-278 [Find_force(k,3)] *)
Definition squares (v : vec) : R := v 0%nat ^ 2 + v 1%nat ^ 2 + v 2%nat ^ 2.
Definition Find_force (a : R) (f : six) : R :=
  let V := velocity_V a f in
  let O := rotation_V a f in
  6 * PI * a * (sqrt (squares (vec_re V) + squares (vec_im V)) + sqrt (squares (vec_re O) + squares (vec_im O))).
(** 154-177; [None]: [fuel] passes did not suffice *)
Fixpoint iterate (fuel j : nat) (eps : R) (N : nat) (radius : nat -> R) (r : nat -> nat -> R) (s : arrays) : option arrays :=
  if (Nat.ltb j 6 || Rltb globalerror eps)%bool then
    match fuel with
    | O => None
    | S fuel' =>
        let t := reflect N radius r s in
        iterate fuel' (S j) (0 + Find_force (radius 1%nat) (t 1%nat 3%nat) + Find_force (radius 2%nat) (Update_Fields N 1 t 2%nat 3%nat)) N radius r (update N t)
    end
  else Some s.

(** 410-518 [Calculate_Velocities] *)
Definition total (N : nat) (s : arrays) (i : nat) : six :=
  let b n m := within 0 N n m in
  let s1 := s i 1%nat in
  let s2 := s i 2%nat in
  let plus x y := on_range b (c_add x y) x in
  mkSix (plus (cA s1) (cA s2)) (plus (cB s1) (cB s2)) (plus (cC s1) (cC s2)) (plus (cD s1) (cD s2)) (plus (cE s1) (cE s2)) (plus (cF s1) (cF s2)).
Definition out_U (a : R) (f : six) : vec := vec_re (velocity_V a f).
Definition out_O (a : R) (f : six) : vec := vec_re (rotation_V a f).
(** 483-493: Sxx, Syy, Sxy, Sxz, Syz *)
Definition S_re (xg : R) (W : nat -> Z -> R) : nat -> R := fun k => nth k
  [W 1%nat 0%Z * xg; (- (5 / 10) * W 1%nat 0%Z + 3 * (W 1%nat (-2)%Z + W 1%nat 2%Z)) * xg;
   15 / 10 * (W 1%nat 1%Z - W 1%nat (-1)%Z); 15 / 10 * (W 2%nat 1%Z + W 2%nat (-1)%Z); 3 * (W 2%nat (-2)%Z - W 2%nat 2%Z)] 0.
Definition S_im (W : nat -> Z -> R) : nat -> R := fun k => nth k
  [W 2%nat 0%Z; - (5 / 10) * W 2%nat 0%Z + 3 * (W 2%nat (-2)%Z + W 2%nat 2%Z);
   15 / 10 * (W 2%nat 1%Z - W 2%nat (-1)%Z); - (15 / 10) * (W 1%nat 1%Z + W 1%nat (-1)%Z); - (3) * (W 1%nat (-2)%Z - W 1%nat 2%Z)] 0.
Definition out_S (xg a : R) (f : six) : nat -> R := S_re xg (stress_V a f).
(** 494-504: any imaginary part above 1e-4 stops the program *)
Definition is_real (a : R) (f : six) : bool :=
  let small x := Rleb (Rabs x) (/ 10 ^ 4) in
  (forallb (fun k => small (vec_im (velocity_V a f) k) && small (vec_im (rotation_V a f) k))%bool [0; 1; 2]%nat &&
   forallb (fun k => small (S_im (stress_V a f) k)) [0; 1; 2; 3; 4]%nat)%bool.
(** 377-382, the order printed *)
Definition printed (xg a : R) (f : six) : list R :=
  map (out_U a f) [0; 1; 2]%nat ++ map (out_O a f) [0; 1; 2]%nat ++ map (out_S xg a f) [0; 1; 2; 3; 4]%nat.
(** 147-183: the program with outputform "short" *)
Definition Two_Sphere (fuel : nat) (radius : nat -> R) (s : R) (xg : R) (Ff Tt : nat -> vec) (Ee : nat -> mat) : option (list R) :=
  let N := Z.to_nat (Set_N radius s) in
  let r i j := match i, j with 1%nat, 2%nat => s | _, _ => - s end in
  match Set_Initial_Conditions N radius xg Ff Tt Ee with
  | None => None
  | Some s0 =>
      match iterate fuel 0 1 N radius r s0 with
      | None => None
      | Some t =>
          let f1 := total N t 1%nat in
          let f2 := total N t 2%nat in
          if (is_real (radius 1%nat) f1 && is_real (radius 2%nat) f2)%bool
          then Some (printed xg (radius 1%nat) f1 ++ printed xg (radius 2%nat) f2) else None
      end
  end.
