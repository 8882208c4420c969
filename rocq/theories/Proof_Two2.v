(** The interaction of a pair on the z axis is bounded by the mobilities of
    the isolated beads. *)
From Coq Require Import Reals Arith Bool List Lia Lra Psatz FunctionalExtensionality.
From Verif Require Import Base Model_Pack Model_Mob Model_Layout Model_Minf Spec_Layout Spec_Minf Spec_Rotate Proof_Mob Proof_Mob2 Proof_Two1.
Import ListNotations.
Local Open Scope R_scope.

(** Forces [X KU], torques [X KO], stresslets [X KS] on one bead, [Y] on the
    other. *)
Definition bil (G : kind -> kind -> nat -> nat -> R) (X Y : kind -> nat -> R) : R :=
  let b k1 k2 := rsum (ksize k1) (fun i => rsum (ksize k2) (fun j => X k1 i * G k1 k2 i j * Y k2 j)) in
  (b KU KU + b KU KO + b KU KS) + (b KO KU + b KO KO + b KO KS) + (b KS KU + b KS KO + b KS KS).
Definition sq (n : nat) (x : nat -> R) : R := rsum n (fun i => x i * x i).
(** Twice the power of the isolated bead over c = 1/(8 pi mu). *)
Definition alone (a : R) (X : kind -> nat -> R) : R :=
  4 / 3 / a * sq 3 (X KU) + / a ^ 3 * sq 3 (X KO) + 6 / 5 / a ^ 3 * sq 5 (X KS).

Lemma bil_ext G G' X Y : (forall k1 k2 i j, k1 <> KB -> k2 <> KB -> (i < ksize k1)%nat -> (j < ksize k2)%nat -> G k1 k2 i j = G' k1 k2 i j) -> bil G X Y = bil G' X Y.
Proof.
  intros H. unfold bil. repeat match goal with |- (_ + _ = _ + _)%R => apply f_equal2 end;
  apply rsum_ext; intros i Hi; apply rsum_ext; intros j Hj; rewrite H by (discriminate || assumption); reflexivity.
Qed.

(** Adding inequalities of Cauchy and Schwarz. *)
Lemma add_cs x y p q r t : 0 <= p -> 0 <= q -> 0 <= r -> 0 <= t -> x * x <= p * q -> y * y <= r * t -> (x + y) * (x + y) <= (p + r) * (q + t).
Proof.
  intros Hp Hq Hr Ht H1 H2.
  assert (Hpt : 0 <= p * t) by (apply Rmult_le_pos; assumption). assert (Hrq : 0 <= r * q) by (apply Rmult_le_pos; assumption).
  assert (H : (x * y) * (x * y) <= (p * t) * (r * q)).
  { replace ((x * y) * (x * y)) with ((x * x) * (y * y)) by ring. replace ((p * t) * (r * q)) with ((p * q) * (r * t)) by ring.
    apply Rmult_le_compat; try assumption; apply Rle_0_sqr. }
  assert (H3 : 2 * (x * y) <= p * t + r * q).
  { destruct (Rle_dec (2 * (x * y)) (p * t + r * q)) as [L|N]; [exact L|]. exfalso. apply Rnot_le_lt in N.
    assert ((p * t + r * q) * (p * t + r * q) < (2 * (x * y)) * (2 * (x * y))) by (apply Rmult_le_0_lt_compat; lra).
    pose proof (Rle_0_sqr (p * t - r * q)) as Q. unfold Rsqr in Q. lra. }
  lra.
Qed.
Lemma one_cs C x y g p q : C * C = g * (p * q) -> (C * x * y) * (C * x * y) <= (p * (x * x)) * (g * (q * (y * y))).
Proof. intros H. apply Req_le. replace (C * x * y * (C * x * y)) with ((C * C) * (x * x) * (y * y)) by ring. rewrite H. ring. Qed.

(** Polynomials of the ratios radius over distance. *)
Section Ratios.
Variables u v : R.
Hypothesis Hu : 0 < u.
Hypothesis Hv : 0 < v.
Hypothesis Huv : u + v <= 1.
Variable q : R.
Hypothesis Hq : q = u ^ 2 + v ^ 2.

Lemma q01 : 0 < q <= 1 - 2 * (u * v). Proof.
  pose proof (Rmult_lt_0_compat u u Hu Hu). pose proof (Rmult_lt_0_compat v v Hv Hv).
  assert ((u + v) * (u + v) <= 1 * 1) by (apply Rmult_le_compat; lra). rewrite Hq. split; lra.
Qed.
Lemma uv4 : 0 < u * v <= 1 / 4. Proof.
  pose proof (Rmult_lt_0_compat u v Hu Hv). pose proof (Rle_0_sqr (u - v)) as H0. unfold Rsqr in H0.
  assert ((u + v) * (u + v) <= 1 * 1) by (apply Rmult_le_compat; lra). split; lra.
Qed.
Lemma uv_sq : (u * v) * (u * v) <= (1 - q) / 8.
Proof. pose proof q01. pose proof uv4. pose proof (Rmult_le_compat (u * v) (1 / 4) (u * v) ((1 - q) / 2) ltac:(lra) ltac:(lra) ltac:(lra) ltac:(lra)). lra. Qed.
Lemma x_sum : 9 / 4 * (1 - q / 3) ^ 2 + 15 / 4 * v ^ 2 * (1 - u ^ 2 - 3 / 5 * v ^ 2) ^ 2
   + 15 / 4 * u ^ 2 * (1 - v ^ 2 - 3 / 5 * u ^ 2) ^ 2 + 25 * (u * v) ^ 2 * (1 - 6 / 5 * q) ^ 2 <= 81 / 25.
Proof.
  pose proof q01 as [Q0 Q1]. pose proof uv4 as [V0 V1]. assert (Q2 : q <= 1) by lra.
  assert (A1 : (1 - q / 3) ^ 2 <= 1 - 5 / 9 * q) by (pose proof (Rmult_le_pos q (1 - q) ltac:(lra) ltac:(lra)); lra).
  assert (U2 : 0 <= u ^ 2) by apply pow2_ge_0. assert (V2 : 0 <= v ^ 2) by apply pow2_ge_0.
  assert (B : forall t, 3 / 5 * q <= t <= 1 -> (1 - t) ^ 2 <= (1 - 3 / 5 * q) ^ 2).
  { intros t Ht. apply pow_incr. lra. }
  assert (A2 : v ^ 2 * (1 - u ^ 2 - 3 / 5 * v ^ 2) ^ 2 <= v ^ 2 * (1 - 3 / 5 * q) ^ 2).
  { apply Rmult_le_compat_l; [exact V2|]. replace (1 - u ^ 2 - 3 / 5 * v ^ 2) with (1 - (u ^ 2 + 3 / 5 * v ^ 2)) by field. apply B. lra. }
  assert (A3 : u ^ 2 * (1 - v ^ 2 - 3 / 5 * u ^ 2) ^ 2 <= u ^ 2 * (1 - 3 / 5 * q) ^ 2).
  { apply Rmult_le_compat_l; [exact U2|]. replace (1 - v ^ 2 - 3 / 5 * u ^ 2) with (1 - (v ^ 2 + 3 / 5 * u ^ 2)) by field. apply B. lra. }
  assert (A4 : q * (1 - 3 / 5 * q) ^ 2 <= q - 21 / 25 * q ^ 2).
  { replace (q * (1 - 3 / 5 * q) ^ 2) with (q - 6 / 5 * q ^ 2 + 9 / 25 * (q ^ 2 * q)) by field. assert (q ^ 2 * q <= q ^ 2 * 1) by (apply Rmult_le_compat_l; [apply pow_le; lra|lra]). lra. }
  assert (A5 : (u * v) ^ 2 * (1 - 6 / 5 * q) ^ 2 <= 12 / 1000).
  { assert (W : (u * v) ^ 2 <= q ^ 2 / 4).
    { assert (D : 0 <= u * v <= q / 2) by (pose proof (Rle_0_sqr (u - v)) as H0; unfold Rsqr in H0; rewrite Hq; split; lra).
      replace (q ^ 2 / 4) with ((q / 2) ^ 2) by field. apply pow_incr. exact D. }
    assert (E : - (21 / 100) <= q * (1 - 6 / 5 * q) <= 21 / 100).
    { pose proof (Rmult_le_pos q (1 - q) ltac:(lra) ltac:(lra)). pose proof (Rle_0_sqr (q - 5 / 12)) as H0. unfold Rsqr in H0. split; lra. }
    apply Rle_trans with (q ^ 2 / 4 * (1 - 6 / 5 * q) ^ 2); [apply Rmult_le_compat_r; [apply pow2_ge_0|exact W]|].
    replace (q ^ 2 / 4 * (1 - 6 / 5 * q) ^ 2) with ((q * (1 - 6 / 5 * q)) * (q * (1 - 6 / 5 * q)) / 4) by field.
    set (w := q * (1 - 6 / 5 * q)) in *. pose proof (Rmult_le_pos (21 / 100 - w) (21 / 100 + w) ltac:(lra) ltac:(lra)). lra. }
  assert (A6 : q = u ^ 2 + v ^ 2) by exact Hq.
  assert (A7 : v ^ 2 * (1 - 3 / 5 * q) ^ 2 + u ^ 2 * (1 - 3 / 5 * q) ^ 2 = q * (1 - 3 / 5 * q) ^ 2) by (rewrite A6; ring).
  assert (A8 : 9 / 4 * (1 - 5 / 9 * q) + 15 / 4 * (q - 21 / 25 * q ^ 2) + 300 / 1000 <= 81 / 25) by (pose proof (Rle_0_sqr (q - 2 / 5)) as H0; unfold Rsqr in H0; lra).
  lra.
Qed.
Lemma y_sum : 9 / 16 * (1 + q / 3) ^ 2 + 3 / 4 * v ^ 2 + 3 / 4 * u ^ 2 + 5 / 4 * v ^ 2 * (u ^ 2 + 3 / 5 * v ^ 2) ^ 2
   + 5 / 4 * u ^ 2 * (v ^ 2 + 3 / 5 * u ^ 2) ^ 2 + 15 / 2 * (u * v) ^ 2 + 1 / 4 * (u * v) ^ 2 + 25 / 36 * (u * v) ^ 2 * (3 - 24 / 5 * q) ^ 2 <= 81 / 25.
Proof.
  pose proof q01 as [Q0 Q1]. pose proof uv4 as [V0 V1]. assert (Q2 : q <= 1) by lra. pose proof uv_sq as UV.
  assert (U2 : 0 <= u ^ 2) by apply pow2_ge_0. assert (V2 : 0 <= v ^ 2) by apply pow2_ge_0.
  assert (A1 : (1 + q / 3) ^ 2 <= 1 + 7 / 9 * q) by (pose proof (Rmult_le_pos q (1 - q) ltac:(lra) ltac:(lra)); lra).
  assert (A2 : v ^ 2 * (u ^ 2 + 3 / 5 * v ^ 2) ^ 2 <= v ^ 2 * q ^ 2) by (apply Rmult_le_compat_l; [exact V2|]; apply pow_incr; lra).
  assert (A3 : u ^ 2 * (v ^ 2 + 3 / 5 * u ^ 2) ^ 2 <= u ^ 2 * q ^ 2) by (apply Rmult_le_compat_l; [exact U2|]; apply pow_incr; lra).
  assert (A4 : q ^ 2 * q <= q).
  { replace (q ^ 2 * q) with (q * (q * q)) by ring. rewrite <- (Rmult_1_r q) at 4. apply Rmult_le_compat_l; [lra|].
    apply Rle_trans with (1 * 1); [apply Rmult_le_compat; lra|lra]. }
  assert (A6 : q = u ^ 2 + v ^ 2) by exact Hq.
  assert (A7 : v ^ 2 * q ^ 2 + u ^ 2 * q ^ 2 = q ^ 2 * q) by (rewrite A6; ring).
  assert (A8 : (u * v) ^ 2 * (3 - 24 / 5 * q) ^ 2 <= 9 * (u * v) ^ 2).
  { rewrite (Rmult_comm 9). apply Rmult_le_compat_l; [apply pow2_ge_0|].
    pose proof (Rmult_le_pos (24 / 5 * q) (6 - 24 / 5 * q) ltac:(lra) ltac:(lra)). lra. }
  replace ((u * v) * (u * v)) with ((u * v) ^ 2) in UV by field. lra.
Qed.
End Ratios.

Lemma sq0 t : 0 <= t * t. Proof. apply Rle_0_sqr. Qed.
Ltac nn := lazymatch goal with |- 0 <= _ => idtac end;
  repeat first [assumption | apply Rlt_le; assumption | apply sq0 | apply pow2_ge_0 | apply Rmult_le_pos | apply Rplus_le_le_0_compat | apply pow_le]; try lra.
Lemma row2 C0 C1 x y0 y1 g0 g1 p q0 q1 : 0 <= p -> 0 <= q0 -> 0 <= q1 -> 0 <= g0 -> 0 <= g1 ->
  C0 * C0 = g0 * (p * q0) -> C1 * C1 = g1 * (p * q1) ->
  (C0 * x * y0 + C1 * x * y1) * (C0 * x * y0 + C1 * x * y1) <= (p * (x * x)) * ((g0 + g1) * (q0 * (y0 * y0) + q1 * (y1 * y1))).
Proof.
  intros Hp Hq0 Hq1 Hg0 Hg1 H0 H1.
  assert (S : forall t, 0 <= t * t) by (intros; apply Rle_0_sqr).
  apply Rle_trans with ((p * (x * x) * g0 + p * (x * x) * g1) * (q0 * (y0 * y0) + q1 * (y1 * y1))); [|apply Req_le; ring].
  apply add_cs; try nn.
  - pose proof (one_cs C0 x y0 g0 p q0 H0). lra.
  - pose proof (one_cs C1 x y1 g1 p q1 H1). lra.
Qed.
Lemma row3 C0 C1 C2 x y0 y1 y2 g0 g1 g2 p q0 q1 q2 : 0 <= p -> 0 <= q0 -> 0 <= q1 -> 0 <= q2 -> 0 <= g0 -> 0 <= g1 -> 0 <= g2 ->
  C0 * C0 = g0 * (p * q0) -> C1 * C1 = g1 * (p * q1) -> C2 * C2 = g2 * (p * q2) ->
  (C0 * x * y0 + C1 * x * y1 + C2 * x * y2) * (C0 * x * y0 + C1 * x * y1 + C2 * x * y2)
  <= (p * (x * x)) * ((g0 + g1 + g2) * (q0 * (y0 * y0) + q1 * (y1 * y1) + q2 * (y2 * y2))).
Proof.
  intros Hp Hq0 Hq1 Hq2 Hg0 Hg1 Hg2 H0 H1 H2.
  assert (S : forall t, 0 <= t * t) by (intros; apply Rle_0_sqr).
  apply Rle_trans with ((p * (x * x) * (g0 + g1) + p * (x * x) * g2) * ((q0 * (y0 * y0) + q1 * (y1 * y1)) + q2 * (y2 * y2))); [|apply Req_le; ring].
  apply add_cs; try nn.
  - pose proof (row2 C0 C1 x y0 y1 g0 g1 p q0 q1 Hp Hq0 Hq1 Hg0 Hg1 H0 H1). lra.
  - pose proof (one_cs C2 x y2 g2 p q2 H2). lra.
Qed.

Section Dimensionless.
Variables u v : R.
Hypothesis Hu : 0 < u.
Hypothesis Hv : 0 < v.
Hypothesis Huv : u + v <= 1.
Variables X Y : kind -> nat -> R.
Let q := u ^ 2 + v ^ 2.
Let k := 81 / 25 * (u * v).
Let g1 := 1 - u ^ 2 - 3 / 5 * v ^ 2.
Let g2 := 1 - v ^ 2 - 3 / 5 * u ^ 2.
Let h1 := u ^ 2 + 3 / 5 * v ^ 2.
Let h2 := v ^ 2 + 3 / 5 * u ^ 2.
Notation F := (X KU). Notation F' := (Y KU). Notation T := (X KO). Notation T' := (Y KO).
Notation S := (X KS). Notation S' := (Y KS).
Let t := S 0%nat + S 2%nat.
Let t' := S' 0%nat + S' 2%nat.
Let w := S 0%nat - S 2%nat.
Let w' := S' 0%nat - S' 2%nat.

(** The groups that do not mix on the axis. *)
Definition gY (e f0 o s3 f0' o' s3' : R) : R :=
  ((1 + q / 3) * f0 * f0' + e * f0 * o' + s2 * h1 * f0 * s3')
  + (- e * o * f0' + - (1 / 2) * o * o' + - (3 / 2 * s2) * e * o * s3')
  + (- (s2 * h2) * s3 * f0' + - (3 / 2 * s2) * e * s3 * o' + (3 - 24 / 5 * q) * s3 * s3').
Definition gX (f t f' t' : R) : R :=
  (2 * (1 - q / 3) * f * f' + - (sqrt 3 * g1) * f * t') + (sqrt 3 * g2 * t * f' + - (3 * (1 - 6 / 5 * q)) * t * t').
Lemma split_groups : bil (fun k1 k2 => ax k1 k2 u v) X Y =
  gX (F 2%nat) t (F' 2%nat) t' + (T 2%nat * T' 2%nat + (3 / 5 * q * w * w' + 6 / 5 * q * S 1%nat * S' 1%nat))
  + (gY 1 (F 0%nat) (T 1%nat) (S 3%nat) (F' 0%nat) (T' 1%nat) (S' 3%nat) + gY (-1) (F 1%nat) (T 0%nat) (S 4%nat) (F' 1%nat) (T' 0%nat) (S' 4%nat)).
Proof.
  unfold bil, gX, gY, t, t', w, w', g1, g2, h1, h2. cbn [ksize]. unfold rsum. cbn [ax]. fold q.
  generalize (sqrt 3) s2. intros. field.
Qed.

Lemma kpos : 0 <= k. Proof. unfold k. pose proof (Rmult_lt_0_compat u v Hu Hv). lra. Qed.

Let pF := 4 / 3 / u. Let qF := 4 / 3 / v.
Let pT := / u ^ 3. Let qT := / v ^ 3.
Let pS := 6 / 5 / u ^ 3. Let qS := 6 / 5 / v ^ 3.
Lemma p_pos : 0 < pF /\ 0 < qF /\ 0 < pT /\ 0 < qT /\ 0 < pS /\ 0 < qS.
Proof.
  assert (0 < u ^ 3) by (apply pow_lt; exact Hu). assert (0 < v ^ 3) by (apply pow_lt; exact Hv).
  unfold pF, qF, pT, qT, pS, qS. repeat match goal with |- _ /\ _ => split end; try apply Rdiv_lt_0_compat; try apply Rinv_0_lt_compat; lra.
Qed.

Lemma gX_le f x f' x' : gX f x f' x' * gX f x f' x' <= (pF * (f * f) + pS / 2 * (x * x)) * (k * (qF * (f' * f') + qS / 2 * (x' * x'))).
Proof.
  destruct p_pos as (P1 & P2 & P3 & P4 & P5 & P6). pose proof (Rmult_lt_0_compat u v Hu Hv) as UV. pose proof (sqrt_sqrt 3 ltac:(lra)) as R3.
  set (a := 9 / 4 * (u * v) * (1 - q / 3) ^ 2). set (b := 15 / 4 * (u * v * v ^ 2) * g1 ^ 2).
  set (d := 15 / 4 * (u * v * u ^ 2) * g2 ^ 2). set (h := 25 * (u * v * (u * v) ^ 2) * (1 - 6 / 5 * q) ^ 2).
  assert (Sum : a + b + d + h <= k).
  { pose proof (x_sum u v Hu Hv Huv q eq_refl) as E. fold g1 g2 in E.
    replace (a + b + d + h) with ((u * v) * (9 / 4 * (1 - q / 3) ^ 2 + 15 / 4 * v ^ 2 * g1 ^ 2 + 15 / 4 * u ^ 2 * g2 ^ 2 + 25 * (u * v) ^ 2 * (1 - 6 / 5 * q) ^ 2))
      by (unfold a, b, d, h; ring).
    unfold k. rewrite (Rmult_comm (81 / 25)). apply Rmult_le_compat_l; lra. }
  assert (NN : 0 <= qF * (f' * f') + qS / 2 * (x' * x')) by nn.
  assert (0 <= a /\ 0 <= b /\ 0 <= d /\ 0 <= h) as (A & B & D & HH) by (unfold a, b, d, h; repeat match goal with |- _ /\ _ => split end; nn).
  apply Rle_trans with ((pF * (f * f) + pS / 2 * (x * x)) * ((a + b) * (qF * (f' * f') + qS / 2 * (x' * x')) + (d + h) * (qF * (f' * f') + qS / 2 * (x' * x')))).
  - unfold gX. apply add_cs; try nn.
    + apply row2; try assumption; try lra.
      * unfold a, pF, qF. field. lra.
      * unfold b, pF, qS. replace (- (sqrt 3 * g1) * - (sqrt 3 * g1)) with ((sqrt 3 * sqrt 3) * (g1 * g1)) by ring. rewrite R3. field. lra.
    + apply row2; try assumption; try lra.
      * unfold d, pS, qF. replace (sqrt 3 * g2 * (sqrt 3 * g2)) with ((sqrt 3 * sqrt 3) * (g2 * g2)) by ring. rewrite R3. field. lra.
      * unfold h, pS, qS. field. lra.
  - apply Rmult_le_compat_l; [nn|]. rewrite <- Rmult_plus_distr_r. apply Rmult_le_compat_r; [exact NN|lra].
Qed.
Lemma gY_le e f o x f' o' x' : e * e = 1 -> gY e f o x f' o' x' * gY e f o x f' o' x'
  <= (pF * (f * f) + pT * (o * o) + pS * (x * x)) * (k * (qF * (f' * f') + qT * (o' * o') + qS * (x' * x'))).
Proof.
  intros He. destruct p_pos as (P1 & P2 & P3 & P4 & P5 & P6). pose proof (Rmult_lt_0_compat u v Hu Hv) as UV. pose proof s2_sq as R2.
  set (n0 := 9 / 16 * (u * v) * (1 + q / 3) ^ 2). set (n1 := 3 / 4 * (u * v * v ^ 2)). set (n2 := 5 / 4 * (u * v * v ^ 2) * h1 ^ 2).
  set (n3 := 3 / 4 * (u * v * u ^ 2)). set (n4 := 1 / 4 * (u * v * (u * v) ^ 2)). set (n5 := 15 / 4 * (u * v * (u * v) ^ 2)).
  set (n6 := 5 / 4 * (u * v * u ^ 2) * h2 ^ 2). set (n8 := 25 / 36 * (u * v * (u * v) ^ 2) * (3 - 24 / 5 * q) ^ 2).
  assert (Sum : n0 + n1 + n2 + (n3 + n4 + n5) + (n6 + n5 + n8) <= k).
  { pose proof (y_sum u v Hu Hv Huv q eq_refl) as E. fold h1 h2 in E.
    replace (n0 + n1 + n2 + (n3 + n4 + n5) + (n6 + n5 + n8)) with ((u * v) * (9 / 16 * (1 + q / 3) ^ 2 + 3 / 4 * v ^ 2 + 3 / 4 * u ^ 2 + 5 / 4 * v ^ 2 * h1 ^ 2
       + 5 / 4 * u ^ 2 * h2 ^ 2 + 15 / 2 * (u * v) ^ 2 + 1 / 4 * (u * v) ^ 2 + 25 / 36 * (u * v) ^ 2 * (3 - 24 / 5 * q) ^ 2))
      by (unfold n0, n1, n2, n3, n4, n5, n6, n8; field).
    unfold k. rewrite (Rmult_comm (81 / 25)). apply Rmult_le_compat_l; lra. }
  assert (NN : 0 <= qF * (f' * f') + qT * (o' * o') + qS * (x' * x')) by nn.
  assert (0 <= n0 /\ 0 <= n1 /\ 0 <= n2 /\ 0 <= n3 /\ 0 <= n4 /\ 0 <= n5 /\ 0 <= n6 /\ 0 <= n8) as (A0 & A1 & A2 & A3 & A4 & A5 & A6 & A8)
    by (unfold n0, n1, n2, n3, n4, n5, n6, n8; repeat match goal with |- _ /\ _ => split end; nn).
  set (W := qF * (f' * f') + qT * (o' * o') + qS * (x' * x')) in *.
  apply Rle_trans with ((pF * (f * f) + pT * (o * o) + pS * (x * x)) * ((n0 + n1 + n2) * W + (n3 + n4 + n5) * W + (n6 + n5 + n8) * W)).
  - unfold gY. apply add_cs; try nn; [apply add_cs; try nn| ]; unfold W; apply row3; try assumption; try lra;
      unfold n0, n1, n2, n3, n4, n5, n6, n8, pF, pT, pS, qF, qT, qS.
    + field. lra.
    + rewrite He. field. lra.
    + replace (s2 * h1 * (s2 * h1)) with ((s2 * s2) * (h1 * h1)) by ring. rewrite R2. field. lra.
    + replace (- e * - e) with (e * e) by ring. rewrite He. field. lra.
    + field. lra.
    + replace (- (3 / 2 * s2) * e * (- (3 / 2 * s2) * e)) with (9 / 4 * (s2 * s2) * (e * e)) by field. rewrite He, R2. field. lra.
    + replace (- (s2 * h2) * - (s2 * h2)) with ((s2 * s2) * (h2 * h2)) by ring. rewrite R2. field. lra.
    + replace (- (3 / 2 * s2) * e * (- (3 / 2 * s2) * e)) with (9 / 4 * (s2 * s2) * (e * e)) by field. rewrite He, R2. field. lra.
    + field. lra.
  - apply Rmult_le_compat_l; [nn|]. rewrite <- !Rmult_plus_distr_r. apply Rmult_le_compat_r; [exact NN|lra].
Qed.
Lemma one_le C g p p' x y : 0 <= p -> 0 <= p' -> g <= k -> C * C = g * (p * p') -> C * x * y * (C * x * y) <= p * (x * x) * (k * (p' * (y * y))).
Proof.
  intros Hp Hp' Hg HC. apply Rle_trans with (1 := one_cs C x y g p p' HC). apply Rmult_le_compat_l; [nn|]. apply Rmult_le_compat_r; [nn|exact Hg].
Qed.
Lemma small_k e : 0 <= e <= 1 -> e * (u * v * (u * v) ^ 2) <= k.
Proof.
  intros He. pose proof (uv4 u v Hu Hv Huv) as [U0 U1]. assert ((u * v) ^ 2 <= 1) by (rewrite <- (pow1 2); apply pow_incr; lra).
  assert (0 <= (u * v) ^ 2) by apply pow2_ge_0. assert (u * v * (u * v) ^ 2 <= u * v * 1) by (apply Rmult_le_compat_l; lra).
  assert (0 <= u * v * (u * v) ^ 2) by nn.
  assert (e * (u * v * (u * v) ^ 2) <= 1 * (u * v * (u * v) ^ 2)) by (apply Rmult_le_compat_r; lra). unfold k. lra.
Qed.

Theorem axis_le : bil (fun k1 k2 => ax k1 k2 u v) X Y * bil (fun k1 k2 => ax k1 k2 u v) X Y <= alone u X * (81 / 25 * (u * v) * alone v Y).
Proof.
  destruct p_pos as (P1 & P2 & P3 & P4 & P5 & P6). pose proof kpos as KP.
  assert (Q2 : 0 <= q ^ 2 <= 1).
  { destruct (q01 u v Hu Hv Huv q eq_refl) as [A B]. pose proof (Rmult_lt_0_compat u v Hu Hv). split; [apply pow2_ge_0|]. rewrite <- (pow1 2). apply pow_incr. lra. }
  set (PX := pF * (F 2%nat * F 2%nat) + pS / 2 * (t * t)). set (QX := qF * (F' 2%nat * F' 2%nat) + qS / 2 * (t' * t')).
  set (PZ := pT * (T 2%nat * T 2%nat) + (pS / 2 * (w * w) + pS * (S 1%nat * S 1%nat))).
  set (QZ := qT * (T' 2%nat * T' 2%nat) + (qS / 2 * (w' * w') + qS * (S' 1%nat * S' 1%nat))).
  set (PY := pF * (F 0%nat * F 0%nat) + pT * (T 1%nat * T 1%nat) + pS * (S 3%nat * S 3%nat)).
  set (QY := qF * (F' 0%nat * F' 0%nat) + qT * (T' 1%nat * T' 1%nat) + qS * (S' 3%nat * S' 3%nat)).
  set (PW := pF * (F 1%nat * F 1%nat) + pT * (T 0%nat * T 0%nat) + pS * (S 4%nat * S 4%nat)).
  set (QW := qF * (F' 1%nat * F' 1%nat) + qT * (T' 0%nat * T' 0%nat) + qS * (S' 4%nat * S' 4%nat)).
  assert (EP : alone u X = PX + PZ + (PY + PW)).
  { unfold alone, PX, PZ, PY, PW, t, w, sq, rsum. fold pF pT pS. field. }
  assert (EQ : 81 / 25 * (u * v) * alone v Y = k * QX + k * QZ + (k * QY + k * QW)).
  { unfold alone, QX, QZ, QY, QW, t', w', sq, rsum. fold qF qT qS k. field. }
  assert (0 <= PX /\ 0 <= PZ /\ 0 <= PY /\ 0 <= PW) as (N1 & N2 & N3 & N4) by (unfold PX, PZ, PY, PW; repeat match goal with |- _ /\ _ => split end; nn).
  assert (0 <= QX /\ 0 <= QZ /\ 0 <= QY /\ 0 <= QW) as (M1 & M2 & M3 & M4) by (unfold QX, QZ, QY, QW; repeat match goal with |- _ /\ _ => split end; nn).
  rewrite split_groups, EP, EQ.
  apply add_cs; try nn; apply add_cs; try nn.
  - apply gX_le.
  - unfold PZ, QZ. replace (k * (qT * (T' 2%nat * T' 2%nat) + (qS / 2 * (w' * w') + qS * (S' 1%nat * S' 1%nat))))
      with (k * (qT * (T' 2%nat * T' 2%nat)) + (k * (qS / 2 * (w' * w')) + k * (qS * (S' 1%nat * S' 1%nat)))) by ring.
    apply add_cs; try nn; [|apply add_cs; try nn].
    + pose proof (one_le 1 (1 * (u * v * (u * v) ^ 2)) pT qT (T 2%nat) (T' 2%nat)) as E. rewrite !Rmult_1_l in E. apply E; [lra|lra| |].
      * pose proof (small_k 1 ltac:(lra)). lra.
      * unfold pT, qT. field. lra.
    + apply (one_le _ (q ^ 2 * (u * v * (u * v) ^ 2))); [lra|lra|apply small_k; exact Q2|]. unfold pS, qS. field. lra.
    + apply (one_le _ (q ^ 2 * (u * v * (u * v) ^ 2))); [lra|lra|apply small_k; exact Q2|]. unfold pS, qS. field. lra.
  - apply gY_le. ring.
  - apply gY_le. ring.
Qed.
End Dimensionless.

(** The mobilities of the pair on the axis, with their units. *)
Lemma axis_entry s u v c mu k1 k2 i j : tiny < s -> k1 <> KB -> k2 <> KB -> (i < ksize k1)%nat -> (j < ksize k2)%nat ->
  pmob k1 k2 (v3 0 0 s) s (u * s) (v * s) c mu i j = c / s * (/ kpow k1 s * / kpow k2 s * ax k1 k2 u v i j).
Proof.
  intros Hs H1 H2 Hi Hj. pose proof (s_pos s Hs) as SP. destruct k1; try congruence; destruct k2; try congruence; cbn [pmob kpow ksize] in *.
  + rewrite ax_M11 by assumption. field. lra.
  + rewrite ax_M12 by assumption. field. lra.
  + rewrite cond_table by assumption.
    replace (v3 0 0 s) with (v3 0 0 (1 * s)) by (rewrite Rmult_1_l; reflexivity).
    split5 i Hi; split5 j Hj; rewrite !ax_M13 by (lia || (left; reflexivity) || assumption); cbn [ax]; rewrite <- ?hs3_sum; field; lra.
  + rewrite ax_M21 by assumption. field. lra.
  + rewrite ax_M22 by assumption. field. lra.
  + rewrite cond_table by assumption.
    replace (v3 0 0 s) with (v3 0 0 (1 * s)) by (rewrite Rmult_1_l; reflexivity).
    split5 i Hi; split5 j Hj; rewrite !ax_M23 by (lia || (left; reflexivity) || assumption); cbn [ax]; rewrite <- ?hs3_sum; field; lra.
  + rewrite cond_table by assumption.
    replace (vopp (v3 0 0 s)) with (v3 0 0 (- (1) * s)) by (apply functional_extensionality; intros x; symmetry; apply z_opp).
    split5 i Hi; split5 j Hj; rewrite !ax_M13 by (lia || (right; reflexivity) || assumption); cbn [ax]; rewrite <- ?hs3_sum; field; lra.
  + rewrite cond_table by assumption.
    replace (vopp (v3 0 0 s)) with (v3 0 0 (- (1) * s)) by (apply functional_extensionality; intros x; symmetry; apply z_opp).
    split5 i Hi; split5 j Hj; rewrite !ax_M23 by (lia || (right; reflexivity) || assumption); cbn [ax]; rewrite <- ?hs3_sum; field; lra.
  + destruct (Rlt_dec tiny s) as [_|N]; [|contradiction]. rewrite cond_table by assumption.
    pose proof (sqrt_sqrt 3 ltac:(lra)) as R3. pose proof s2_sq as R2.
    assert (EC : c / s * (/ s * / s * ax KS KS u v i j) = c / s ^ 3 * ax KS KS u v i j) by (field; lra). rewrite EC. clear EC.
    split5 i Hi; rewrite !cond_table by assumption; split5 j Hj; rewrite !ax_M33 by (lia || assumption); cbn [ax]; cbn zeta;
      unfold hs3p1, hs3m1, s3; set (cc := c / s ^ 3); set (r3 := sqrt 3) in *; set (r2 := s2) in *; set (q := u ^ 2 + v ^ 2); clearbody cc r3 r2 q;
      field [R3 R2].
Qed.
(** The pair on the axis, with its units. *)
Theorem pair_axis s u v c mu X Y : tiny < s -> 0 < u -> 0 < v -> u + v <= 1 -> 0 < c ->
  let b := bil (fun k1 k2 => pmob k1 k2 (v3 0 0 s) s (u * s) (v * s) c mu) X Y in
  b * b <= (c * alone (u * s) X) * (81 / 25 * (u * v) * (c * alone (v * s) Y)).
Proof.
  intros Hs Hu Hv Huv Hc b. pose proof (s_pos s Hs) as SP.
  set (Xh := fun k i => X k i / kpow k s). set (Yh := fun k i => Y k i / kpow k s).
  assert (Eb : b = c / s * bil (fun k1 k2 => ax k1 k2 u v) Xh Yh).
  { unfold b. rewrite (bil_ext _ (fun k1 k2 i j => c / s * (/ kpow k1 s * / kpow k2 s * ax k1 k2 u v i j))).
    - unfold bil. rewrite !Rmult_plus_distr_l. repeat match goal with |- (_ + _ = _ + _)%R => apply f_equal2 end;
      rewrite <- rsum_scal_l; apply rsum_ext; intros i _; rewrite <- rsum_scal_l; apply rsum_ext; intros j _; unfold Xh, Yh, Rdiv; ring.
    - intros k1 k2 i j H1 H2 Hi Hj. apply axis_entry; assumption. }
  assert (EX : alone (u * s) X = / s * alone u Xh).
  { unfold alone, Xh, sq, rsum. cbn [kpow]. field. lra. }
  assert (EY : alone (v * s) Y = / s * alone v Yh).
  { unfold alone, Yh, sq, rsum. cbn [kpow]. field. lra. }
  pose proof (axis_le u v Hu Hv Huv Xh Yh) as H. rewrite Eb, EX, EY.
  set (B := bil _ Xh Yh) in *.
  replace (c / s * B * (c / s * B)) with ((c / s) * (c / s) * (B * B)) by ring.
  replace (c * (/ s * alone u Xh) * (81 / 25 * (u * v) * (c * (/ s * alone v Yh)))) with ((c / s) * (c / s) * (alone u Xh * (81 / 25 * (u * v) * alone v Yh))) by (unfold Rdiv; ring).
  apply Rmult_le_compat_l; [apply sq0|exact H].
Qed.
