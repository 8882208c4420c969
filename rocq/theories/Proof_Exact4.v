(** Scalars meeting [two_sphere_scalars]: spheres that feel each other only
    through the forces along the line of centres. *)
From Coq Require Import Reals List Arith Bool Lia Lra.
From Verif Require Import Base Model_Mob Spec_Scalars Spec_Exact Proof_Scalars.
Import ListNotations.
Local Open Scope R_scope.

Definition from3 (f : nat -> nat -> nat -> R) : nat -> R := fun k => f (k / 4)%nat ((k mod 4) / 2)%nat ((k mod 4) mod 2)%nat.
Lemma from3_scalar f n p q : (p < 2)%nat -> (q < 2)%nat -> scalar (from3 f) n p q = f n p q.
Proof.
  intros Hp Hq. unfold scalar, from3. replace (4 * n + 2 * p + q)%nat with (2 * p + q + n * 4)%nat by lia.
  rewrite Nat.div_add, Nat.mod_add by lia.
  destruct p as [|[|p]]; [| |lia]; (destruct q as [|[|q]]; [| |lia]); reflexivity.
Qed.

(** Force on one sphere as the other moves along the line, over 6 pi. *)
Definition ex_c (r1 r2 s : R) : R := r1 * r2 / s.
Definition ex_a (r1 r2 : R) (p : nat) : R := match p with 0%nat => r1 | _ => r2 end.
Definition ex_X (r1 r2 s : R) : nat -> R := from3 (fun n p q =>
  if Nat.eqb p q then
    let a := ex_a r1 r2 p in nth n [6 * PI * a; 6 * PI * a; 0; 8 * PI * a ^ 3; 8 * PI * a ^ 3; 0; 0; 0; 20 / 3 * PI * a ^ 3; 20 / 3 * PI * a ^ 3; 20 / 3 * PI * a ^ 3] 0
  else match n with 0%nat => - (6 * PI * ex_c r1 r2 s) | _ => 0 end).
Definition ex_x (r1 r2 s : R) : nat -> R := from3 (fun n p q =>
  let det := r1 * r2 - ex_c r1 r2 s * ex_c r1 r2 s in
  if Nat.eqb p q then
    let a := ex_a r1 r2 p in
    nth n [ex_a r1 r2 (1 - p) / (6 * PI * det); / (6 * PI * a); 0; / (8 * PI * a ^ 3); / (8 * PI * a ^ 3); 0; 0; 0;
           20 / 3 * PI * a ^ 3; 20 / 3 * PI * a ^ 3; 20 / 3 * PI * a ^ 3] 0
  else match n with 0%nat => ex_c r1 r2 s / (6 * PI * det) | _ => 0 end).

Section One.
Variables r1 r2 s : R.
Hypothesis H1 : 0 < r1.
Hypothesis H2 : 0 < r2.
Hypothesis Hs : r1 + r2 < s.
Notation c := (ex_c r1 r2 s).
Let Y (p : nat) : R := 6 * PI * ex_a r1 r2 p.
Lemma c_pos : 0 < c.
Proof. unfold ex_c. apply Rdiv_lt_0_compat; [apply Rmult_lt_0_compat; assumption|lra]. Qed.
Lemma c_less : c < r1 /\ c < r2.
Proof.
  unfold ex_c. split; apply Rmult_lt_reg_r with s; try lra; unfold Rdiv; rewrite Rmult_assoc, Rinv_l by lra.
  - rewrite Rmult_1_r. apply Rmult_lt_compat_l; lra.
  - rewrite Rmult_1_r, (Rmult_comm r1). apply Rmult_lt_compat_l; lra.
Qed.
Lemma det_pos : 0 < r1 * r2 - c * c.
Proof. pose proof c_pos. destruct c_less. assert (c * c < r1 * r2) by (apply Rmult_gt_0_lt_compat; lra). lra. Qed.

(** The laws, written out. *)
Variable d : vec.
Hypothesis Hd : unit_vector d.
Variables (U O F T : nat -> vec) (E S : nat -> mat).
Hypothesis HE : strains E.
Let al (V : nat -> vec) (p : nat) : R := along d (V p).

Ltac sc := rewrite !from3_scalar by lia; cbn [Nat.eqb nth ex_a Nat.sub].
Definition plainR : Prop :=
  (forall p i, (p < 2)%nat -> (i < 3)%nat -> F p i = Y p * U p i - 6 * PI * c * (d i * al U (1 - p))) /\
  (forall p i, (p < 2)%nat -> (i < 3)%nat -> T p i = 8 * PI * ex_a r1 r2 p ^ 3 * O p i) /\
  (forall p i j, (p < 2)%nat -> (i < 3)%nat -> (j < 3)%nat -> S p i j = 20 / 3 * PI * ex_a r1 r2 p ^ 3 * E p i j).
Definition plainM : Prop :=
  (forall p i, (p < 2)%nat -> (i < 3)%nat ->
     U p i = / Y p * (F p i - d i * al F p) + d i * ((ex_a r1 r2 (1 - p) * al F p + c * al F (1 - p)) / (6 * PI * (r1 * r2 - c * c)))) /\
  (forall p i, (p < 2)%nat -> (i < 3)%nat -> O p i = / (8 * PI * ex_a r1 r2 p ^ 3) * T p i) /\
  (forall p i j, (p < 2)%nat -> (i < 3)%nat -> (j < 3)%nat -> S p i j = 20 / 3 * PI * ex_a r1 r2 p ^ 3 * E p i j).

Lemma whole (A : mat) i j : strain A -> (i < 3)%nat -> (j < 3)%nat ->
  (d i * d j - delta i j / 3) * (3 / 2 * stretch d A) + (d i * skew d A j + d j * skew d A i) + zpart d A i j = A i j.
Proof.
  intros HA Hi Hj. destruct (strain_eqs A HA) as [E1 [E2 [E3 E4]]]. unfold zpart, skew, stretch, across, along, pull.
  idx3 Hi; idx3 Hj; unfold delta; levis; rewrite E1, E2, E3, E4; field.
Qed.
Lemma sum2 f : rsum 2 f = f 0%nat + f 1%nat. Proof. cbn [rsum]. ring. Qed.
Lemma half p : (p < 2)%nat -> p = 0%nat \/ p = 1%nat. Proof. lia. Qed.

Ltac acts := rewrite ?actA, ?actBt, ?actGt, ?actB, ?actC, ?actHt, ?actG, ?actH, ?actM by (assumption || lia || (apply HE; lia)).
Lemma resistance_plain : resistance_law (ex_X r1 r2 s) d U O F T E S <-> plainR.
Proof.
  unfold resistance_law, plainR. split; intros (A & B & C); (split; [|split]).
  - intros p i Hp Hi. rewrite (A p i Hp Hi). rewrite sum2. acts. unfold ex_X, Y, al, across. destruct (half p Hp) as [-> | ->]; sc; ring.
  - intros p i Hp Hi. rewrite (B p i Hp Hi). rewrite sum2. acts. unfold ex_X, across. destruct (half p Hp) as [-> | ->]; sc; ring.
  - intros p i j Hp Hi Hj. rewrite (C p i j Hp Hi Hj). rewrite sum2. acts. rewrite <- (whole (E p) i j (HE p Hp) Hi Hj). unfold ex_X. destruct (half p Hp) as [-> | ->]; sc; ring.
  - intros p i Hp Hi. rewrite (A p i Hp Hi). rewrite sum2. acts. unfold ex_X, Y, al, across. destruct (half p Hp) as [-> | ->]; sc; ring.
  - intros p i Hp Hi. rewrite (B p i Hp Hi). rewrite sum2. acts. unfold ex_X, across. destruct (half p Hp) as [-> | ->]; sc; ring.
  - intros p i j Hp Hi Hj. rewrite (C p i j Hp Hi Hj). rewrite sum2. acts. rewrite <- (whole (E p) i j (HE p Hp) Hi Hj). unfold ex_X. destruct (half p Hp) as [-> | ->]; sc; ring.
Qed.
Lemma mobility_plain : mobility_law (ex_x r1 r2 s) d U O F T E S <-> plainM.
Proof.
  unfold mobility_law, plainM. split; intros (A & B & C); (split; [|split]).
  - intros p i Hp Hi. rewrite (A p i Hp Hi). rewrite sum2. acts. unfold ex_x, Y, al, across, Rdiv. destruct (half p Hp) as [-> | ->]; sc; unfold Rdiv; ring.
  - intros p i Hp Hi. rewrite (B p i Hp Hi). rewrite sum2. acts. unfold ex_x, across. destruct (half p Hp) as [-> | ->]; sc; ring.
  - intros p i j Hp Hi Hj. rewrite (C p i j Hp Hi Hj). rewrite sum2. acts. rewrite <- (whole (E p) i j (HE p Hp) Hi Hj). unfold ex_x. destruct (half p Hp) as [-> | ->]; sc; ring.
  - intros p i Hp Hi. rewrite (A p i Hp Hi). rewrite sum2. acts. unfold ex_x, Y, al, across, Rdiv. destruct (half p Hp) as [-> | ->]; sc; unfold Rdiv; ring.
  - intros p i Hp Hi. rewrite (B p i Hp Hi). rewrite sum2. acts. unfold ex_x, across. destruct (half p Hp) as [-> | ->]; sc; ring.
  - intros p i j Hp Hi Hj. rewrite (C p i j Hp Hi Hj). rewrite sum2. acts. rewrite <- (whole (E p) i j (HE p Hp) Hi Hj). unfold ex_x. destruct (half p Hp) as [-> | ->]; sc; ring.
Qed.

Lemma along_lin (V W : vec) a b : (forall i, (i < 3)%nat -> V i = a * W i + b * d i) -> along d V = a * along d W + b.
Proof.
  intros H. unfold along. rewrite !H by lia. unfold unit_vector in Hd.
  transitivity (a * (d 0%nat * W 0%nat + d 1%nat * W 1%nat + d 2%nat * W 2%nat) + b * (d 0%nat * d 0%nat + d 1%nat * d 1%nat + d 2%nat * d 2%nat)); [ring|]. rewrite Hd. ring.
Qed.
Lemma a_pos p : 0 < ex_a r1 r2 p. Proof. destruct p; assumption. Qed.

Lemma same_problem : plainM <-> plainR.
Proof.
  pose proof det_pos as HD. pose proof PI_RGT_0 as Hpi. pose proof c_pos as Hc. set (D := r1 * r2 - c * c) in *.
  unfold plainM, plainR. split; intros (A & B & C); (split; [|split; [|exact C]]).
  - assert (AU : forall p, (p < 2)%nat -> al U p = (ex_a r1 r2 (1 - p) * al F p + c * al F (1 - p)) / (6 * PI * D)).
    { intros p Hp. unfold al at 1.
      rewrite (along_lin (U p) (F p) (/ Y p) (- / Y p * al F p + (ex_a r1 r2 (1 - p) * al F p + c * al F (1 - p)) / (6 * PI * D))); [unfold al; ring|].
      intros i Hi. rewrite (A p i Hp Hi). fold D. ring. }
    intros p i Hp Hi. rewrite (A p i Hp Hi), (AU (1 - p)%nat) by lia. fold D. replace (1 - (1 - p))%nat with p by lia.
    pose proof (a_pos p). unfold Y. generalize (al F p) (al F (1 - p)%nat) (F p i) (d i). intros f f' Fi di.
    assert (DD : ex_a r1 r2 p * ex_a r1 r2 (1 - p) = D + c * c) by (unfold D; destruct (half p Hp) as [-> | ->]; cbn [ex_a Nat.sub]; ring).
    transitivity (Fi + di * f * ((ex_a r1 r2 p * ex_a r1 r2 (1 - p) - c * c) / D - 1)); [rewrite DD; field; lra|].
    field. lra.
  - intros p i Hp Hi. rewrite (B p i Hp Hi). field. pose proof (a_pos p). split; lra.
  - assert (AF : forall p, (p < 2)%nat -> al F p = Y p * al U p - 6 * PI * c * al U (1 - p)).
    { intros p Hp. unfold al at 1. rewrite (along_lin (F p) (U p) (Y p) (- (6 * PI * c * al U (1 - p)))); [unfold al; ring|].
      intros i Hi. rewrite (A p i Hp Hi). ring. }
    intros p i Hp Hi. rewrite (A p i Hp Hi), (AF p Hp), (AF (1 - p)%nat) by lia. replace (1 - (1 - p))%nat with p by lia.
    pose proof (a_pos p). pose proof (a_pos (1 - p)). unfold Y. generalize (al U p) (al U (1 - p)%nat) (U p i) (d i). intros u u' Ui di.
    assert (DD : ex_a r1 r2 p * ex_a r1 r2 (1 - p) = D + c * c) by (unfold D; destruct (half p Hp) as [-> | ->]; cbn [ex_a Nat.sub]; ring).
    transitivity (Ui + di * u * ((ex_a r1 r2 p * ex_a r1 r2 (1 - p) - c * c) / D - 1)); [rewrite DD; field; lra|].
    fold D. field. lra.
  - intros p i Hp Hi. rewrite (B p i Hp Hi). field. pose proof (a_pos p). split; lra.
Qed.

Lemma sq_along (V : vec) : along d V * along d V <= V 0%nat * V 0%nat + V 1%nat * V 1%nat + V 2%nat * V 2%nat.
Proof.
  unfold along, unit_vector in *. set (a := along d V).
  assert (0 <= (V 0%nat - d 0%nat * along d V) ^ 2 + (V 1%nat - d 1%nat * along d V) ^ 2 + (V 2%nat - d 2%nat * along d V) ^ 2)
    by (apply Rplus_le_le_0_compat; [apply Rplus_le_le_0_compat|]; apply pow2_ge_0).
  assert (Q : (V 0%nat - d 0%nat * along d V) ^ 2 + (V 1%nat - d 1%nat * along d V) ^ 2 + (V 2%nat - d 2%nat * along d V) ^ 2
    = V 0%nat * V 0%nat + V 1%nat * V 1%nat + V 2%nat * V 2%nat - 2 * along d V * along d V + (along d V * along d V) * (d 0%nat * d 0%nat + d 1%nat * d 1%nat + d 2%nat * d 2%nat)).
  { unfold along. ring. }
  rewrite Hd in Q. fold (along d V). lra.
Qed.

Definition sq (V : vec) : R := V 0%nat * V 0%nat + V 1%nat * V 1%nat + V 2%nat * V 2%nat.
Definition sqm (A : mat) : R := rsum 3 (fun i => rsum 3 (fun j => A i j * A i j)).
Lemma sq_pos V : 0 <= sq V.
Proof. unfold sq. pose proof (Rle_0_sqr (V 0%nat)). pose proof (Rle_0_sqr (V 1%nat)). pose proof (Rle_0_sqr (V 2%nat)). unfold Rsqr in *. lra. Qed.
Lemma sq_some V i : (i < 3)%nat -> V i <> 0 -> 0 < sq V.
Proof.
  intros Hi N. pose proof (Rlt_0_sqr (V i) N) as Q. pose proof (Rle_0_sqr (V 0%nat)). pose proof (Rle_0_sqr (V 1%nat)). pose proof (Rle_0_sqr (V 2%nat)).
  unfold sq, Rsqr in *. idx3 Hi; lra.
Qed.
Lemma sqm_rows A : sqm A = sq (A 0%nat) + sq (A 1%nat) + sq (A 2%nat).
Proof. unfold sqm, sq. cbn [rsum]. ring. Qed.
Lemma sqm_pos A : 0 <= sqm A.
Proof. rewrite sqm_rows. pose proof (sq_pos (A 0%nat)). pose proof (sq_pos (A 1%nat)). pose proof (sq_pos (A 2%nat)). lra. Qed.
Lemma sqm_some A i j : (i < 3)%nat -> (j < 3)%nat -> A i j <> 0 -> 0 < sqm A.
Proof.
  intros Hi Hj N. pose proof (sq_some (A i) j Hj N) as Q. rewrite sqm_rows. pose proof (sq_pos (A 0%nat)). pose proof (sq_pos (A 1%nat)). pose proof (sq_pos (A 2%nat)).
  idx3 Hi; lra.
Qed.
Lemma costs : moving U O E -> plainR -> 0 < power U O E F T S.
Proof.
  intros M (A & B & C). pose proof PI_RGT_0 as Hpi. pose proof c_pos as Hc. destruct c_less as [L1 L2].
  set (m1 := 8 * PI * r1 ^ 3). set (m2 := 8 * PI * r2 ^ 3). set (k1 := 20 / 3 * PI * r1 ^ 3). set (k2 := 20 / 3 * PI * r2 ^ 3).
  assert (P1 : 0 < r1 ^ 3) by (apply pow_lt; exact H1). assert (P2 : 0 < r2 ^ 3) by (apply pow_lt; exact H2).
  assert (0 < m1) by (unfold m1; apply Rmult_lt_0_compat; lra). assert (0 < m2) by (unfold m2; apply Rmult_lt_0_compat; lra).
  assert (0 < k1) by (unfold k1; apply Rmult_lt_0_compat; lra). assert (0 < k2) by (unfold k2; apply Rmult_lt_0_compat; lra).
  assert (EP : power U O E F T S = 6 * PI * (r1 * sq (U 0%nat) + r2 * sq (U 1%nat) - 2 * c * (al U 0 * al U 1))
    + (m1 * sq (O 0%nat) + m2 * sq (O 1%nat)) + (k1 * sqm (E 0%nat) + k2 * sqm (E 1%nat))).
  { unfold power. rewrite sum2. cbn [rsum]. rewrite !A, !B, !C by lia. cbn [ex_a Nat.sub]. unfold Y, sq, sqm, al, along. cbn [rsum ex_a]. unfold m1, m2, k1, k2. ring. }
  rewrite EP. clear EP.
  pose proof (sq_along (U 0%nat)) as Q0. pose proof (sq_along (U 1%nat)) as Q1. fold (sq (U 0%nat)) in Q0. fold (sq (U 1%nat)) in Q1. fold (al U 0) in Q0. fold (al U 1) in Q1.
  assert (Q : 2 * (al U 0 * al U 1) <= sq (U 0%nat) + sq (U 1%nat)).
  { pose proof (Rle_0_sqr (al U 0 - al U 1)) as Z. unfold Rsqr in Z. lra. }
  set (u0 := sq (U 0%nat)) in *. set (u1 := sq (U 1%nat)) in *.
  assert (N0 : 0 <= u0) by apply sq_pos. assert (N1 : 0 <= u1) by apply sq_pos.
  assert (QQ : 6 * PI * ((r1 - c) * u0 + (r2 - c) * u1) <= 6 * PI * (r1 * u0 + r2 * u1 - 2 * c * (al U 0 * al U 1))).
  { apply Rmult_le_compat_l; [lra|]. assert (c * (2 * (al U 0 * al U 1)) <= c * (u0 + u1)) by (apply Rmult_le_compat_l; lra). lra. }
  apply Rlt_le_trans with (6 * PI * ((r1 - c) * u0 + (r2 - c) * u1) + (m1 * sq (O 0%nat) + m2 * sq (O 1%nat)) + (k1 * sqm (E 0%nat) + k2 * sqm (E 1%nat))); [|lra].
  pose proof (sq_pos (O 0%nat)) as O0. pose proof (sq_pos (O 1%nat)) as O1. pose proof (sqm_pos (E 0%nat)) as E0. pose proof (sqm_pos (E 1%nat)) as E1.
  assert (A0 : 0 <= (r1 - c) * u0) by (apply Rmult_le_pos; lra). assert (A1 : 0 <= (r2 - c) * u1) by (apply Rmult_le_pos; lra).
  assert (A2 : 0 <= m1 * sq (O 0%nat)) by (apply Rmult_le_pos; lra). assert (A3 : 0 <= m2 * sq (O 1%nat)) by (apply Rmult_le_pos; lra).
  assert (A4 : 0 <= k1 * sqm (E 0%nat)) by (apply Rmult_le_pos; lra). assert (A5 : 0 <= k2 * sqm (E 1%nat)) by (apply Rmult_le_pos; lra).
  assert (Z : 0 <= 6 * PI * ((r1 - c) * u0 + (r2 - c) * u1)) by (apply Rmult_le_pos; lra).
  destruct M as (p & i & Hp & Hi & [N|[N|(j & Hj & N)]]); destruct (half p Hp) as [-> | ->].
  - assert (0 < (r1 - c) * u0) by (apply Rmult_lt_0_compat; [lra|apply (sq_some _ i Hi N)]). assert (0 < 6 * PI * ((r1 - c) * u0 + (r2 - c) * u1)) by (apply Rmult_lt_0_compat; lra). lra.
  - assert (0 < (r2 - c) * u1) by (apply Rmult_lt_0_compat; [lra|apply (sq_some _ i Hi N)]). assert (0 < 6 * PI * ((r1 - c) * u0 + (r2 - c) * u1)) by (apply Rmult_lt_0_compat; lra). lra.
  - assert (0 < m1 * sq (O 0%nat)) by (apply Rmult_lt_0_compat; [lra|apply (sq_some _ i Hi N)]). lra.
  - assert (0 < m2 * sq (O 1%nat)) by (apply Rmult_lt_0_compat; [lra|apply (sq_some _ i Hi N)]). lra.
  - assert (0 < k1 * sqm (E 0%nat)) by (apply Rmult_lt_0_compat; [lra|apply (sqm_some _ i j Hi Hj N)]). lra.
  - assert (0 < k2 * sqm (E 1%nat)) by (apply Rmult_lt_0_compat; [lra|apply (sqm_some _ i j Hi Hj N)]). lra.
Qed.
End One.

Theorem ex_two_spheres : two_sphere_scalars ex_x ex_X.
Proof.
  split; [|split; [|split; [|split]]].
  - intros r1 r2 s d U O F T E S H1 H2 Hs Hd HE. rewrite mobility_plain, resistance_plain by assumption. apply same_problem; assumption.
  - intros h r1 r2 s n p q Hh H1 H2 Hs Hn Hp Hq. unfold ex_X. rewrite !from3_scalar by assumption.
    destruct (half p Hp) as [-> | ->], (half q Hq) as [-> | ->]; cbn [Nat.eqb];
      do 11 (destruct n as [|n]; [unfold length_power, ex_c; cbn [nth ex_a]; try ring; field; lra|]); lia.
  - intros r1 r2 s n p q H1 H2 Hs Hn Hp Hq. unfold ex_X. rewrite !from3_scalar by lia.
    destruct (half p Hp) as [-> | ->], (half q Hq) as [-> | ->]; cbn [Nat.eqb Nat.sub];
      do 11 (destruct n as [|n]; [unfold odd_family, ex_c; cbn [nth ex_a]; unfold Rdiv; ring|]); lia.
  - intros r1 r2 s n p q H1 H2 Hs Hn Hp Hq. unfold ex_X. rewrite !from3_scalar by lia.
    destruct (half p Hp) as [-> | ->], (half q Hq) as [-> | ->]; reflexivity.
  - intros r1 r2 s d U O F T E S H1 H2 Hs Hd HE HM HL. apply (resistance_plain r1 r2 s d U O F T E S HE) in HL.
    exact (costs r1 r2 s H1 H2 Hs d Hd U O F T E S HM HL).
Qed.
