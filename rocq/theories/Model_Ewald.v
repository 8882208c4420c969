(** Model of the real-space and wave-space pair functions of the periodic
    far-field mobility.
    Source: stokesian_dynamics/functions/generate_Minfinity_periodic.py 17-545.
    Floats are real numbers; rounding is not modelled.  Boolean factors
    [(i == j)] are [delta i j].  An array [erfcs] is a function of its index.
    Names that also occur in generate_Minfinity.py carry a final [r] (real
    space) here. *)
From Coq Require Import Reals Arith Lra.
From Verif Require Import Base Model_Mob.
Local Open Scope R_scope.

(** ** [math.erfc]
    The complementary error function 1 - 2/sqrt(pi) int_0^x exp(-t^2) dt. *)
Definition gauss (t : R) : R := exp (- (t * t)).

Lemma gauss_cont x : continuity_pt gauss x.
Proof.
  apply derivable_continuous_pt. unfold gauss.
  exists (exp (- (x * x)) * - (1 * x + x * 1)).
  apply (derivable_pt_lim_comp (fun t => - (t * t)) exp).
  - apply (derivable_pt_lim_opp (fun t => t * t)).
    apply (derivable_pt_lim_mult id id); apply derivable_pt_lim_id.
  - apply derivable_pt_lim_exp.
Qed.

Definition gauss_integrable (a b : R) : Riemann_integrable gauss a b :=
  match Rle_dec a b with
  | left h => continuity_implies_RiemannInt h (fun x _ => gauss_cont x)
  | right h => RiemannInt_P1 (continuity_implies_RiemannInt
                 (Rlt_le b a (Rnot_le_lt a b h)) (fun x _ => gauss_cont x))
  end.

Definition erfc (x : R) : R := 1 - 2 / sqrt PI * RiemannInt (gauss_integrable 0 x).

(** ** Derivatives of r erfc(lambda r) *)

(** 24-40 [DD_rerfclr] *)
Definition DD_rerfclr (ri rj ss erfc0 erfc1 erfc2 : R) (i j : nat) : R :=
  (delta i j / ss - ri * rj / ss ^ 3) * erfc0
  + (delta i j + ri * rj / ss ^ 2) * erfc1
  + ri * rj / ss * erfc2.

(** 43-46 [Lap_rerfclr] *)
Definition Lap_rerfclr (ss erfc0 erfc1 erfc2 : R) : R :=
  2 / ss * erfc0 + 4 * erfc1 + ss * erfc2.

(** 51-59 [DDD_rerfclr] *)
Definition DDD_rerfclr (ri rj rl ss erfc0 erfc1 erfc2 erfc3 : R) (i j l : nat) : R :=
  let a := - delta i j * rl - delta i l * rj - delta j l * ri + 3 * ri * rj * rl / ss ^ 2 in
  1 / ss ^ 3 * a * erfc0
  + 1 / ss ^ 2 * (- a) * erfc1
  + 1 / ss * (delta i j * rl + delta i l * rj + delta j l * ri) * erfc2
  + ri * rj * rl / ss ^ 2 * erfc3.

(** 62-66 [DLap_rerfclr] *)
Definition DLap_rerfclr (rl ss erfc0 erfc1 erfc2 erfc3 : R) : R :=
  - (2) * rl / ss ^ 3 * erfc0 + 2 * rl / ss ^ 2 * erfc1 + 5 * rl / ss * erfc2 + rl * erfc3.

(** 71-87 [DDDD_rerfclr] *)
Definition DDDD_rerfclr (ri rj rl rm ss erfc0 erfc1 erfc2 erfc3 erfc4 : R) (i j l m : nat) : R :=
  let kron_rr := delta i j * rl * rm + delta i l * rj * rm + delta l j * ri * rm
                 + delta i m * rj * rl + delta j m * ri * rl + delta l m * ri * rj in
  let kron3 := delta i j * delta l m + delta j l * delta i m + delta i l * delta j m in
  let rirjrlrm := ri * rj * rl * rm in
  let a := - kron3 / ss ^ 3 + 3 * kron_rr / ss ^ 5 - 15 * rirjrlrm / ss ^ 7 in
  a * erfc0
  + (- a * ss) * erfc1
  + (kron3 / ss - 3 * rirjrlrm / ss ^ 5) * erfc2
  + (kron_rr / ss ^ 2 - 2 * rirjrlrm / ss ^ 4) * erfc3
  + rirjrlrm / ss ^ 3 * erfc4.

(** 90-101 [DDLap_rerfclr] *)
Definition DDLap_rerfclr (rl rm ss erfc0 erfc1 erfc2 erfc3 erfc4 : R) (l m : nat) : R :=
  let kron_lm := delta l m in
  let rlrm := rl * rm in
  let a := - (2) * kron_lm / ss ^ 3 + 6 * rlrm / ss ^ 5 in
  a * erfc0
  + (- a * ss) * erfc1
  + (- (3) * rlrm / ss ^ 3 + 5 * kron_lm / ss) * erfc2
  + (5 * rlrm / ss ^ 2 + kron_lm) * erfc3
  + rlrm / ss * erfc4.

(** 104-108 [LapLap_rerfclr] *)
Definition LapLap_rerfclr (ss erfc2 erfc3 erfc4 : R) : R :=
  12 / ss * erfc2 + 8 * erfc3 + ss * erfc4.

(** 113-126 [DDDLap_rerfclr] *)
Definition DDDLap_rerfclr (ri rj rk ss erfc0 erfc1 erfc2 erfc3 erfc4 erfc5 : R)
    (i j k : nat) : R :=
  let kron_r := delta i j * rk + delta i k * rj + delta j k * ri in
  let a := 6 * kron_r / ss ^ 5 - 30 * ri * rj * rk / ss ^ 7 in
  let rirjrk := ri * rj * rk in
  a * erfc0
  + (- a * ss) * erfc1
  + (- (3) * kron_r / ss ^ 3 + 3 * rirjrk / ss ^ 5) * erfc2
  + (5 * kron_r / ss ^ 2 - 13 * rirjrk / ss ^ 4) * erfc3
  + (kron_r / ss + 4 * rirjrk / ss ^ 3) * erfc4
  + rirjrk / ss ^ 2 * erfc5.

(** 129-136 [DLapLap_rerfclr] *)
Definition DLapLap_rerfclr (rk ss erfc2 erfc3 erfc4 erfc5 : R) : R :=
  - (12) * rk / ss ^ 3 * erfc2
  + 12 * rk / ss ^ 2 * erfc3
  + 9 * rk / ss * erfc4
  + rk * erfc5.

(** 141-157 [DDDDLap_rerfclr] *)
Definition DDDDLap_rerfclr (ri rj rk rl ss erfc0 erfc1 erfc2 erfc3 erfc4 erfc5 erfc6 : R)
    (i j k l : nat) : R :=
  let kron_rr := delta i j * rk * rl + delta i k * rj * rl + delta k j * ri * rl
                 + delta i l * rj * rk + delta j l * ri * rk + delta k l * ri * rj in
  let kron3 := delta i j * delta k l + delta j k * delta i l + delta i k * delta j l in
  let rirjrkrl := ri * rj * rk * rl in
  let a := 6 * kron3 / ss ^ 5 - 30 * kron_rr / ss ^ 7 + 210 * rirjrkrl / ss ^ 9 in
  a * erfc0
  + (- a * ss) * erfc1
  + (- (3) * kron3 / ss ^ 3 + 3 * kron_rr / ss ^ 5 + 15 * rirjrkrl / ss ^ 7) * erfc2
  + (5 * kron3 / ss ^ 2 - 13 * kron_rr / ss ^ 4 + 55 * rirjrkrl / ss ^ 6) * erfc3
  + (kron3 / ss + 4 * kron_rr / ss ^ 3 - 25 * rirjrkrl / ss ^ 5) * erfc4
  + (kron_rr / ss ^ 2 + 2 * rirjrkrl / ss ^ 4) * erfc5
  + (rirjrkrl / ss ^ 3) * erfc6.

(** 160-169 [DDLapLap_rerfclr] *)
Definition DDLapLap_rerfclr (rk rl ss erfc2 erfc3 erfc4 erfc5 erfc6 : R) (k l : nat) : R :=
  let a := - (12) * delta k l / ss ^ 3 + 36 * rk * rl / ss ^ 5 in
  a * erfc2
  + (- a) * ss * erfc3
  + (3 * rk * rl / ss ^ 3 + 9 * delta k l / ss) * erfc4
  + (9 * rk * rl / ss ^ 2 + delta k l) * erfc5
  + rk * rl / ss * erfc6.

(** 173-184 [generate_erfcs]; [pi**0.5] is the square root. *)
Definition generate_erfcs (s lamb : R) : nat -> R :=
  let E := 2 / sqrt PI * exp (- s ^ 2 * lamb ^ 2) * lamb in
  fun n => match n with
  | 0%nat => erfc (lamb * s)
  | 1%nat => - E
  | 2%nat => 2 * lamb ^ 2 * s * E
  | 3%nat => - (2) * lamb ^ 2 * E * (2 * lamb ^ 2 * s ^ 2 - 1)
  | 4%nat => 4 * lamb ^ 4 * s * E * (2 * lamb ^ 2 * s ^ 2 - 3)
  | 5%nat => - (4) * lamb ^ 4 * E * (4 * lamb ^ 4 * s ^ 4 - 12 * lamb ^ 2 * s ^ 2 + 3)
  | 6%nat => 8 * lamb ^ 6 * s * E * (4 * lamb ^ 4 * s ^ 4 - 20 * lamb ^ 2 * s ^ 2 + 15)
  | _ => 0
  end.

(** ** Derivatives of J^r *)
Local Notation mod3 n := (Nat.modulo n 3).

(** 225-229 [J] *)
Definition Jr (r : vec) (ss : R) (i j : nat) (e : nat -> R) : R :=
  delta i j * Lap_rerfclr ss (e 0%nat) (e 1%nat) (e 2%nat)
  - DD_rerfclr (r i) (r j) ss (e 0%nat) (e 1%nat) (e 2%nat) i j.

(** 248-258 [D_J] *)
Definition D_Jr (r : vec) (ss : R) (l i j : nat) (e : nat -> R) : R :=
  delta i j * DLap_rerfclr (r l) ss (e 0%nat) (e 1%nat) (e 2%nat) (e 3%nat)
  - DDD_rerfclr (r i) (r j) (r l) ss (e 0%nat) (e 1%nat) (e 2%nat) (e 3%nat) i j l.

(** 234-239 [R] *)
Definition Rr (r : vec) (ss : R) (i j : nat) (e : nat -> R) : R :=
  let k := mod3 (j + 1)%nat in
  let l := mod3 (j + 2)%nat in
  - (1 / 2) * (D_Jr r ss k i l e - D_Jr r ss l i k e).

(** 242-245 [K] *)
Definition Kr (r : vec) (ss : R) (i j k : nat) (e : nat -> R) : R :=
  1 / 2 * (D_Jr r ss k i j e + D_Jr r ss j i k e).

(** 263-276 [DD_J] *)
Definition DD_Jr (r : vec) (ss : R) (m l i j : nat) (e : nat -> R) : R :=
  delta i j * DDLap_rerfclr (r l) (r m) ss (e 0%nat) (e 1%nat) (e 2%nat) (e 3%nat) (e 4%nat) l m
  - DDDD_rerfclr (r i) (r j) (r l) (r m) ss
      (e 0%nat) (e 1%nat) (e 2%nat) (e 3%nat) (e 4%nat) i j l m.

(** 279-286 [D_R] *)
Definition D_Rr (r : vec) (ss : R) (l i j : nat) (e : nat -> R) : R :=
  let m := mod3 (j + 1)%nat in
  let n := mod3 (j + 2)%nat in
  - (1 / 2) * (DD_Jr r ss l m i n e - DD_Jr r ss l n i m e).

(** 289-293 [D_K] *)
Definition D_Kr (r : vec) (ss : R) (l i j k : nat) (e : nat -> R) : R :=
  1 / 2 * (DD_Jr r ss l k i j e + DD_Jr r ss l j i k e).

(** 296-303 [Lap_J] *)
Definition Lap_Jr (r : vec) (ss : R) (i j : nat) (e : nat -> R) : R :=
  delta i j * LapLap_rerfclr ss (e 2%nat) (e 3%nat) (e 4%nat)
  - DDLap_rerfclr (r i) (r j) ss (e 0%nat) (e 1%nat) (e 2%nat) (e 3%nat) (e 4%nat) i j.

(** 308-317 [DLap_J] *)
Definition DLap_Jr (r : vec) (ss : R) (k i j : nat) (e : nat -> R) : R :=
  delta i j * DLapLap_rerfclr (r k) ss (e 2%nat) (e 3%nat) (e 4%nat) (e 5%nat)
  - DDDLap_rerfclr (r i) (r j) (r k) ss
      (e 0%nat) (e 1%nat) (e 2%nat) (e 3%nat) (e 4%nat) (e 5%nat) i j k.

(** 320-326 [Lap_R] *)
Definition Lap_Rr (r : vec) (ss : R) (i j : nat) (e : nat -> R) : R :=
  let k := mod3 (j + 1)%nat in
  let l := mod3 (j + 2)%nat in
  - (1 / 2) * (DLap_Jr r ss k i l e - DLap_Jr r ss l i k e).

(** 329-333 [Lap_K] *)
Definition Lap_Kr (r : vec) (ss : R) (i j k : nat) (e : nat -> R) : R :=
  1 / 2 * (DLap_Jr r ss k i j e + DLap_Jr r ss j i k e).

(** 338-349 [DDLap_J] *)
Definition DDLap_Jr (r : vec) (ss : R) (l k i j : nat) (e : nat -> R) : R :=
  delta i j * DDLapLap_rerfclr (r k) (r l) ss
      (e 2%nat) (e 3%nat) (e 4%nat) (e 5%nat) (e 6%nat) k l
  - DDDDLap_rerfclr (r i) (r j) (r k) (r l) ss (e 0%nat) (e 1%nat) (e 2%nat) (e 3%nat)
      (e 4%nat) (e 5%nat) (e 6%nat) i j k l.

(** 352-357 [DLap_K] *)
Definition DLap_Kr (r : vec) (ss : R) (l i j k : nat) (e : nat -> R) : R :=
  1 / 2 * (DDLap_Jr r ss l k i j e + DDLap_Jr r ss l j i k e).

(** ** Real-space pair functions *)

(** 191-219: [kron3tracelessmatrix[i][j][k][l]]; the decimals
    1.3333333333333333 and -0.6666666666666667 are 4/3 and -2/3 here. *)
Definition kron3traceless (i j k l : nat) : R :=
  delta i k * delta j l + delta i l * delta j k - 2 / 3 * (delta i j * delta k l).

(** [abs(r[0]) + abs(r[1]) + abs(r[2])] *)
Definition abs1 (r : vec) : R := Rabs (r 0%nat) + Rabs (r 1%nat) + Rabs (r 2%nat).

(** 363-373 [ar] *)
Definition ar (r : vec) (s a1 a2 : R) (i j : nat) (e : nat -> R) (c mu : R) : R :=
  if Rlt_dec tiny s then
    c * (Jr r s i j e + (a1 ^ 2 + a2 ^ 2) / 6 * Lap_Jr r s i j e)
  else delta i j / (6 * PI * mu * a1).

(** 376-383 [btr] *)
Definition btr (r : vec) (s a1 a2 : R) (i j : nat) (e : nat -> R) (c mu : R) : R :=
  if Rlt_dec tiny s then c * (Rr r s i j e + a1 ^ 2 / 6 * Lap_Rr r s i j e) else 0.

(** 386-394 [cr] *)
Definition cr (r : vec) (s a1 a2 : R) (i j : nat) (e : nat -> R) (c mu : R) : R :=
  if Rle_dec (abs1 r) tiny then delta i j / (8 * PI * mu * a1 ^ 3)
  else
    let k := mod3 (i + 1)%nat in
    let l := mod3 (i + 2)%nat in
    c * (1 / 2) * (D_Rr r s k l j e - D_Rr r s l k j e).

(** 397-405 [gtr] *)
Definition gtr (r : vec) (s a1 a2 : R) (i j k : nat) (e : nat -> R) (c mu : R) : R :=
  if Rlt_dec tiny s then
    - c * (Kr r s i j k e + (a1 ^ 2 / 6 + a2 ^ 2 / 10) * Lap_Kr r s i j k e)
  else 0.

(** 408-420 [htr] *)
Definition htr (r : vec) (s a1 a2 : R) (i j k : nat) (e : nat -> R) (c mu : R) : R :=
  if Rlt_dec tiny (abs1 r) then
    let l := mod3 (i + 1)%nat in
    let m := mod3 (i + 2)%nat in
    c * - (1 / 2) * ((D_Kr r s l m j k e + (a2 ^ 2 / 6) * DLap_Kr r s l m j k e)
                     - (D_Kr r s m l j k e + (a2 ^ 2 / 6) * DLap_Kr r s m l j k e))
  else 0.

(** 423-433 [mr] *)
Definition mr (r : vec) (s a1 a2 : R) (i j k l : nat) (e : nat -> R) (c mu : R) : R :=
  if Rlt_dec tiny s then
    - (1 / 2) * c * ((D_Kr r s j i k l e + D_Kr r s i j k l e)
      + (a1 ^ 2 + a2 ^ 2) / 10 * (DLap_Kr r s j i k l e + DLap_Kr r s i j k l e))
  else 1 / 2 * kron3traceless i j k l / (20 / 3 * PI * mu * a1 ^ 3).

(** ** Fourier transforms *)

(** 440-444 [Jtilde] *)
Definition Jtilde (ki kj ss : R) (i j : nat) (RR : R) : R :=
  - (delta i j * ss ^ 2 - ki * kj) * RR.

(** 447-451 [DD_Jtilde] *)
Definition DD_Jtilde (kkm kkl kki kkj ss : R) (i j : nat) (RR : R) : R :=
  - kkm * kkl * Jtilde kki kkj ss i j RR.

(** 454-458 [Lap_Jtilde] *)
Definition Lap_Jtilde (kki kkj ss : R) (i j : nat) (RR : R) : R :=
  - ss ^ 2 * Jtilde kki kkj ss i j RR.

(** 461-466 [D_Ktilde] *)
Definition D_Ktilde (kkl kki kkj kkk ss : R) (i j k : nat) (RR : R) : R :=
  1 / 2 * (DD_Jtilde kkl kkk kki kkj ss i j RR + DD_Jtilde kkl kkj kki kkk ss i k RR).

(** 469-474 [DLap_Ktilde] *)
Definition DLap_Ktilde (kkl kki kkj kkk ss : R) (i j k : nat) (RR : R) : R :=
  1 / 2 * (kkk * kkl * ss ^ 2 * Jtilde kki kkj ss i j RR
           + kkl * kkj * ss ^ 2 * Jtilde kki kkk ss i k RR).

(** 477-488 [D_Rtilde] *)
Definition D_Rtilde (kk : vec) (ss : R) (l i j : nat) (RR : R) : R :=
  let m := mod3 (j + 1)%nat in
  let n := mod3 (j + 2)%nat in
  - (1 / 2) * (DD_Jtilde (kk l) (kk m) (kk i) (kk n) ss i n RR
               - DD_Jtilde (kk l) (kk n) (kk i) (kk m) ss i m RR).

(** 493-503 [aktilde] *)
Definition aktilde (kk : vec) (ss a1 a2 : R) (i j : nat) (RR c : R) : R :=
  c * (Jtilde (kk i) (kk j) ss i j RR
       + (a1 ^ 2 + a2 ^ 2) / 6 * Lap_Jtilde (kk i) (kk j) ss i j RR).

(** 506-513 [cktilde] *)
Definition cktilde (kk : vec) (ss a1 a2 : R) (i j : nat) (RR c : R) : R :=
  let k := mod3 (i + 1)%nat in
  let l := mod3 (i + 2)%nat in
  c * (1 / 2) * (D_Rtilde kk ss k l j RR - D_Rtilde kk ss l k j RR).

(** 516-529 [htktilde] *)
Definition htktilde (kk : vec) (ss a1 a2 : R) (i j k : nat) (RR c : R) : R :=
  let l := mod3 (i + 1)%nat in
  let m := mod3 (i + 2)%nat in
  c * - (1 / 2) *
    ((D_Ktilde (kk l) (kk m) (kk j) (kk k) ss m j k RR
      + (a2 ^ 2 / 6) * DLap_Ktilde (kk l) (kk m) (kk j) (kk k) ss m j k RR)
     - (D_Ktilde (kk m) (kk l) (kk j) (kk k) ss l j k RR
        + (a2 ^ 2 / 6) * DLap_Ktilde (kk m) (kk l) (kk j) (kk k) ss l j k RR)).

(** 532-545 [mktilde] *)
Definition mktilde (kk : vec) (ss a1 a2 : R) (i j k l : nat) (RR c : R) : R :=
  - (1 / 2) * c * (D_Ktilde (kk j) (kk i) (kk k) (kk l) ss i k l RR
    + D_Ktilde (kk i) (kk j) (kk k) (kk l) ss j k l RR
    + (a1 ^ 2 + a2 ^ 2) / 10 * (
        DLap_Ktilde (kk j) (kk i) (kk k) (kk l) ss i k l RR
        + DLap_Ktilde (kk i) (kk j) (kk k) (kk l) ss j k l RR)).
