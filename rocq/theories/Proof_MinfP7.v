(** The translation/torque and translation/stresslet sums leave out the wave
    part: it does not vanish. *)
From Coq Require Import Reals Arith Bool List Lia Lra ZArith FunctionalExtensionality.
From Verif Require Import Base Model_Pack Model_Mob Model_Layout Model_Minf Model_Close Model_Ewald Model_MinfP
  Spec_Layout Spec_Minf Spec_MinfP Spec_Calc Spec_Ewald Proof_Calc Proof_Mob Proof_Mob2 Proof_Periodic
  Proof_Ewald1 Proof_Ewald2 Proof_Ewald3 Proof_Ewald4 Proof_Ewald5 Proof_MinfP1 Proof_MinfP3 Proof_MinfP5 Proof_MinfP6.
Import ListNotations.
Local Open Scope R_scope.

Lemma vsum_nonneg L f : (forall X, In X L -> 0 <= f X) -> 0 <= vsum L f.
Proof.
  induction L as [|X L IH]; intros H; simpl; [lra|].
  pose proof (H X (or_introl eq_refl)). assert (0 <= vsum L f) by (apply IH; intros; apply H; right; assumption).
  unfold vsum in *. lra.
Qed.
Lemma vsum_pos L f Y : (forall X, In X L -> 0 <= f X) -> In Y L -> 0 < f Y -> 0 < vsum L f.
Proof.
  induction L as [|X L IH]; intros H HY Hp; simpl; [destruct HY|].
  pose proof (H X (or_introl eq_refl)).
  assert (N : 0 <= vsum L f) by (apply vsum_nonneg; intros; apply H; right; assumption).
  destruct HY as [->|HY]; [unfold vsum in *; lra|].
  assert (0 < vsum L f) by (apply IH; [intros; apply H; right|..]; assumption). unfold vsum in *. lra.
Qed.

Lemma RR_neg lamb ks : 0 < lamb -> 0 < ks -> RR_of lamb ks < 0.
Proof.
  intros Hl Hk. unfold RR_of. pose proof PI_RGT_0. pose proof (exp_pos (- ks ^ 2 / (4 * lamb ^ 2))) as He.
  assert (A : 0 < 8 * PI / ks ^ 4) by (apply Rdiv_lt_0_compat; [lra|apply pow_lt; exact Hk]).
  assert (B : 0 < ks ^ 2 / (4 * lamb ^ 2)).
  { apply Rdiv_lt_0_compat; [apply pow_lt; exact Hk|]. pose proof (pow_lt lamb 2 Hl). lra. }
  assert (C : 0 < ks ^ 4 / (8 * lamb ^ 4)).
  { apply Rdiv_lt_0_compat; [apply pow_lt; exact Hk|]. pose proof (pow_lt lamb 4 Hl). lra. }
  set (x := 8 * PI / ks ^ 4) in *. set (y := ks ^ 2 / (4 * lamb ^ 2)) in *. set (z := ks ^ 4 / (8 * lamb ^ 4)) in *.
  replace (- 8 * PI / ks ^ 4) with (- x) by (unfold x, Rdiv; ring).
  clearbody x y z.
  assert (0 < x * (1 + y + z) * exp (- ks ^ 2 / (4 * lamb ^ 2))) by (repeat apply Rmult_lt_0_compat; lra).
  lra.
Qed.

Lemma prod5_nonneg a b c d e : 0 <= a -> 0 <= b -> 0 <= c -> 0 <= d -> 0 <= e -> 0 <= a * b * c * d * e.
Proof. intros. repeat apply Rmult_le_pos; assumption. Qed.
Lemma prod5_pos a b c d e : 0 < a -> 0 < b -> 0 < c -> 0 < d -> 0 < e -> 0 < a * b * c * d * e.
Proof. intros. repeat apply Rmult_lt_0_compat; assumption. Qed.

Section Cubic.
Variables (h : nat) (L : R).
Hypothesis HL : 0 < L.
Definition cubic_lattice : lattice := build_lattice h (v3 0 0 0) (v3 L L L) (v3 0 0 0) mzero.
Let lat := cubic_lattice.
Let B := shear_basis_vectors (diag3 (vsub (v3 L L L) (v3 0 0 0))) (vsub (v3 L L L) (v3 0 0 0)) (v3 0 0 0) mzero.
Lemma cubic_L : lat_L lat = L.
Proof.
  unfold lat, cubic_lattice, build_lattice. cbv zeta. cbn [lat_L v3].
  replace ((L - 0) * (L - 0) * (L - 0)) with (L ^ 3) by ring.
  rewrite <- Rpower_pow by exact HL. rewrite Rpower_mult.
  replace (INR 3 * (1 / 3)) with 1 by (simpl; lra). apply Rpower_1. exact HL.
Qed.
Lemma cubic_lamb : 0 < lat_lamb lat.
Proof.
  change (lat_lamb lat) with (spi / lat_L lat). rewrite cubic_L. apply Rdiv_lt_0_compat; [|exact HL].
  unfold spi. apply sqrt_lt_R0. apply PI_RGT_0.
Qed.
Lemma cubic_B i j : (i < 3)%nat -> (j < 3)%nat -> B i j = if Nat.eqb i j then L else 0.
Proof.
  intros Hi Hj. unfold B, shear_basis_vectors. 
  replace (cross (v3 0 0 0) _ j + rsum 3 _) with 0
    by (unfold mzero; unfold cross, v3; destruct j as [|[|[|]]]; cbn [rsum]; ring).
  rewrite rmod_0. idx3 Hi; idx3 Hj; unfold diag3, vsub, v3; cbn [Nat.eqb]; ring.
Qed.
Let w := 2 * PI / L.
Lemma cubic_K l m n : forall j, (j < 3)%nat ->
  combination (k_basis (lat_L lat) B) l m n j = v3 (- IZR m * w) (- IZR l * w) (IZR n * w) j.
Proof.
  intros j Hj. rewrite cubic_L. unfold combination, k_basis, vscal, cross. idx3 Hj; unfold v3; rewrite !cubic_B by lia;
  cbn [Nat.eqb]; unfold w; field; lra.
Qed.
Lemma cubic_comb l m n : forall j, (j < 3)%nat -> combination B l m n j = v3 (IZR l * L) (IZR m * L) (IZR n * L) j.
Proof.
  intros j Hj. unfold combination. idx3 Hj; rewrite !cubic_B by lia; cbn [Nat.eqb]; unfold v3; ring.
Qed.
Lemma norm_cong x y : (forall j, (j < 3)%nat -> x j = y j) -> norm x = norm y.
Proof. intros H. unfold norm. rewrite !H by lia. reflexivity. Qed.
Lemma norm_int l m n t : 0 < t -> norm (v3 (IZR l * t) (IZR m * t) (IZR n * t)) = sqrt (IZR (l * l + m * m + n * n)) * t.
Proof.
  intros Ht. unfold norm, v3. rewrite !plus_IZR, !mult_IZR.
  replace ((IZR l * t) ^ 2 + (IZR m * t) ^ 2 + (IZR n * t) ^ 2)
    with ((IZR l * IZR l + IZR m * IZR m + IZR n * IZR n) * (t * t)) by ring.
  rewrite sqrt_mult_alt by nra. rewrite sqrt_square by lra. reflexivity.
Qed.

Lemma w_pos : 0 < w.
Proof. apply Rdiv_lt_0_compat; [pose proof PI_RGT_0; lra|exact HL]. Qed.

Lemma cubic_K_in K : In K (K_lmn lat) -> exists l m n : Z,
  (Z.abs l <= Z.of_nat h)%Z /\ (Z.abs m <= Z.of_nat h)%Z /\ (Z.abs n <= Z.of_nat h)%Z /\
  (0 < l * l + m * m + n * n)%Z /\ IZR (l * l + m * m + n * n) <= 2 * INR h ^ 2 /\
  K 0%nat = - IZR m * w /\ K 1%nat = - IZR l * w /\ K 2%nat = IZR n * w /\
  norm K ^ 2 = IZR (l * l + m * m + n * n) * w ^ 2.
Proof.
  intros H. apply (proj1 (lattice_K h _ _ _ _ K)) in H. destruct H as (l & m & n & Hl & Hm & Hn & [H0 H1] & ->).
  fold B in H0, H1 |- *. fold lat in H1 |- *. change (build_lattice h (v3 0 0 0) (v3 L L L) (v3 0 0 0) mzero) with lat in H1 |- *.
  exists l, m, n. split; [exact Hl|split; [exact Hm|split; [exact Hn|]]].
  rewrite (norm_cong _ _ (cubic_comb l m n)) in H0, H1. rewrite norm_int in H0, H1 by exact HL. rewrite cubic_L in H1.
  assert (P : (0 < l * l + m * m + n * n)%Z).
  { apply Z.nle_gt. intros Hle. assert (E : (l * l + m * m + n * n = 0)%Z) by nia. rewrite E, sqrt_0 in H0. lra. }
  split; [exact P|].
  assert (HS : 0 <= IZR (l * l + m * m + n * n)) by (apply IZR_le; lia).
  split.
  - assert (H2 : sqrt (IZR (l * l + m * m + n * n)) <= 14142 / 10000 * INR h) by (apply Rmult_le_reg_r with L; lra).
    pose proof (sqrt_pos (IZR (l * l + m * m + n * n))) as H3. pose proof (sqrt_sqrt _ HS) as H4.
    pose proof (pos_INR h). nra.
  - rewrite !cubic_K by lia. split; [reflexivity|]. split; [reflexivity|]. split; [reflexivity|].
    rewrite (norm_cong _ _ (cubic_K l m n)). unfold norm. rewrite pow2_sqrt by nra.
    unfold v3. rewrite !plus_IZR, !mult_IZR. ring.
Qed.
Lemma cubic_in_K l m n : (Z.abs l <= Z.of_nat h)%Z -> (Z.abs m <= Z.of_nat h)%Z -> (Z.abs n <= Z.of_nat h)%Z ->
  (0 < l * l + m * m + n * n)%Z -> IZR (l * l + m * m + n * n) <= 199 / 100 * INR h ^ 2 ->
  In (combination (k_basis (lat_L lat) B) l m n) (K_lmn lat).
Proof.
  intros Hl Hm Hn P H. apply (proj2 (lattice_K h _ _ _ _ _)). fold B. exists l, m, n.
  split; [exact Hl|split; [exact Hm|split; [exact Hn|split; [|reflexivity]]]].
  change (build_lattice h (v3 0 0 0) (v3 L L L) (v3 0 0 0) mzero) with lat.
  rewrite cubic_L. rewrite (norm_cong _ _ (cubic_comb l m n)). rewrite norm_int by exact HL.
  assert (HS : 0 < IZR (l * l + m * m + n * n)) by (apply IZR_lt; exact P).
  pose proof (sqrt_lt_R0 _ HS) as H3. pose proof (sqrt_sqrt _ (Rlt_le _ _ HS)) as H4. pose proof (pos_INR h).
  split; [nra|]. apply Rmult_le_compat_r; [lra|].
  apply Rnot_lt_le. intros Hc. nra.
Qed.
Lemma cubic_X_in X : In X (X_lmn lat) -> exists l m n : Z,
  X 0%nat = IZR l * L /\ X 1%nat = IZR m * L /\ X 2%nat = IZR n * L.
Proof.
  intros H. apply (proj1 (lattice_X h _ _ _ _ X)) in H. destruct H as (l & m & n & _ & _ & _ & -> & _).
  fold B. exists l, m, n. rewrite !cubic_comb by lia. unfold v3. auto.
Qed.
End Cubic.

(** ** The omitted terms at a quarter of the box *)
Section Omitted.
Variable L : R.
Hypothesis HL : 1 <= L.
Variables (a1 a2 c mu : R).
Hypothesis Ha1 : 0 < a1.
Hypothesis Ha2 : 0 < a2.
Hypothesis Hc : 0 < c.
Hypothesis Hbig : 12 * a1 <= L.
Hypothesis Hbig2 : 12 * a2 <= L.
Let lat := cubic_lattice 2 L.
Let HL0 : 0 < L. Proof. lra. Qed.
Let r : vec := v3 (L / 4) 0 0.
Let w := 2 * PI / L.

Lemma quarter_norm : norm r = L / 4.
Proof. unfold norm, r, v3. replace ((L / 4) ^ 2 + 0 ^ 2 + 0 ^ 2) with (L / 4 * (L / 4)) by ring. apply sqrt_square. lra. Qed.
Lemma tiny_quarter : tiny < L / 4.
Proof. unfold tiny. apply Rlt_le_trans with (1 / 4); [|lra]. apply Rlt_le_trans with (/ 10); [|lra].
  apply Rinv_lt_contravar; lra. Qed.
Lemma comp_le_norm (y : vec) : Rabs (y 0%nat) <= norm y.
Proof.
  unfold norm. rewrite <- sqrt_Rsqr_abs. apply sqrt_le_1_alt. unfold Rsqr.
  pose proof (pow2_ge_0 (y 1%nat)). pose proof (pow2_ge_0 (y 2%nat)). lra.
Qed.
Lemma quarter_off : forall X, In X (X_lmn lat) -> tiny < norm (vadd r X).
Proof.
  intros X H. destruct (cubic_X_in 2 L X H) as (l & m & n & E & _ & _).
  apply Rlt_le_trans with (1 := tiny_quarter). apply Rle_trans with (2 := comp_le_norm _).
  unfold vadd. rewrite E. unfold r. cbn [v3].
  assert (D : (l <= -1 \/ 0 <= l)%Z) by lia. destruct D as [D|D]; apply IZR_le in D.
  - rewrite Rabs_left1 by nra. nra.
  - rewrite Rabs_pos_eq by nra. nra.
Qed.

(** sin(K.r) K_x >= 0 for every wave vector *)
Lemma sin_sign m : (Z.abs m <= 2)%Z -> 0 <= sin (- IZR m * w * (L / 4)) * (- IZR m * w).
Proof.
  intros Hm. assert (E : forall t, t * w * (L / 4) = t * (PI / 2)) by (intros; unfold w; field; lra).
  pose proof (w_pos L HL0) as Hw. fold w in Hw.
  rewrite E. assert (D : (m = -2 \/ m = -1 \/ m = 0 \/ m = 1 \/ m = 2)%Z) by lia.
  destruct D as [->|[->|[->|[->| ->]]]].
  - replace (- -2 * (PI / 2)) with PI by field. rewrite sin_PI. lra.
  - replace (- -1 * (PI / 2)) with (PI / 2) by field. rewrite sin_PI2. lra.
  - replace (- 0 * (PI / 2)) with 0 by ring. rewrite sin_0. lra.
  - replace (- (1) * (PI / 2)) with (- (PI / 2)) by ring. rewrite sin_neg, sin_PI2. lra.
  - replace (- (2) * (PI / 2)) with (- PI) by field. rewrite sin_neg, sin_PI. lra.
Qed.
Lemma dot_quarter K : dot3 K r = K 0%nat * (L / 4).
Proof. unfold dot3, r, v3. ring. Qed.

Lemma K_bound K : In K (K_lmn lat) -> norm K ^ 2 <= 8 * w ^ 2.
Proof.
  intros H. destruct (cubic_K_in 2 L HL0 K H) as (l & m & n & _ & _ & _ & _ & B & _ & _ & _ & E).
  fold w in E. rewrite E. simpl INR in B. pose proof (pow2_ge_0 w). nra.
Qed.
Lemma w_small a : 0 < a -> 12 * a <= L -> a ^ 2 * w ^ 2 <= 64 / 144.
Proof.
  intros Ha Hb. pose proof PI_4. pose proof PI_RGT_0. pose proof (w_pos L HL0) as Hw. fold w in Hw.
  assert (W : L * w = 2 * PI) by (unfold w; field; lra).
  assert (0 <= a * w <= 8 / 12). { split; [nra|]. nra. }
  replace (a ^ 2 * w ^ 2) with ((a * w) * (a * w)) by ring. nra.
Qed.

Lemma omitted_b K q : op_b (wDJ K (RR_of (lat_lamb lat) (norm K))) (wDLJ K (RR_of (lat_lamb lat) (norm K))) c a1 q 1 2
  = c / 2 * (sin (dot3 K q) * K 0%nat) * norm K ^ 2 * - RR_of (lat_lamb lat) (norm K) * (1 - a1 ^ 2 / 6 * norm K ^ 2).
Proof.
  unfold op_b, rot. rewrite !rsum3. unfold wDJ, wDLJ, Jt, Jtilde, wsin, eps. simpl INR. unfold delta. cbn [Nat.eqb].
  field.
Qed.
Lemma omitted_g K q : op_g (wDJ K (RR_of (lat_lamb lat) (norm K))) (wDLJ K (RR_of (lat_lamb lat) (norm K))) c a1 a2 q 0 0 0
  = c * (sin (dot3 K q) * K 0%nat) * (norm K ^ 2 - K 0%nat ^ 2) * - RR_of (lat_lamb lat) (norm K)
    * (1 - (a1 ^ 2 / 6 + a2 ^ 2 / 10) * norm K ^ 2).
Proof.
  unfold op_g. unfold wDJ, wDLJ, Jt, Jtilde, wsin, delta. cbn [Nat.eqb].
  field.
Qed.

Lemma factor_b K : In K (K_lmn lat) -> 0 < 1 - a1 ^ 2 / 6 * norm K ^ 2.
Proof.
  intros H. pose proof (K_bound K H). pose proof (w_small a1 Ha1 Hbig). pose proof (pow2_ge_0 a1).
  assert (a1 ^ 2 * norm K ^ 2 <= 8 * (a1 ^ 2 * w ^ 2))
    by (pose proof (Rmult_le_compat_l (a1 ^ 2) _ _ (pow2_ge_0 a1) (K_bound K H)); lra). lra.
Qed.
Lemma norm_K_pos K : In K (K_lmn lat) -> 0 < norm K.
Proof.
  intros H. destruct (cubic_K_in 2 L HL0 K H) as (l & m & n & _ & _ & _ & P & _ & _ & _ & _ & E).
  apply IZR_lt in P. pose proof (w_pos L HL0) as Hw.
  assert (0 < norm K ^ 2) by (rewrite E; apply Rmult_lt_0_compat; [exact P|apply pow_lt; exact Hw]).
  assert (0 <= norm K) by apply sqrt_pos. nra.
Qed.
Lemma sin_K K : In K (K_lmn lat) -> 0 <= sin (dot3 K r) * K 0%nat.
Proof.
  intros H. destruct (cubic_K_in 2 L HL0 K H) as (l & m & n & _ & Hm & _ & _ & _ & E & _ & _ & _).
  fold w in E. rewrite dot_quarter, E. apply sin_sign. exact Hm.
Qed.

(** wave vector with m = -1 and given l *)
Let Bm := shear_basis_vectors (diag3 (vsub (v3 L L L) (v3 0 0 0))) (vsub (v3 L L L) (v3 0 0 0)) (v3 0 0 0) mzero.
Let Kp := combination (k_basis (lat_L lat) Bm) 1 (-1) 0.
Lemma Kp_in : In Kp (K_lmn lat).
Proof. apply (cubic_in_K 2 L HL0); try lia. simpl INR. simpl IZR. lra. Qed.
Lemma Kp_0 : Kp 0%nat = w.
Proof. unfold Kp. unfold lat, Bm. rewrite (cubic_K 2 L HL0) by lia. cbn [v3]. fold w. lra. Qed.
Lemma Kp_1 : Kp 1%nat = - w.
Proof. unfold Kp. unfold lat, Bm. rewrite (cubic_K 2 L HL0) by lia. cbn [v3]. fold w. lra. Qed.
Lemma Kp_sin : sin (dot3 Kp r) * Kp 0%nat = w.
Proof.
  rewrite dot_quarter, Kp_0. replace (w * (L / 4)) with (PI / 2) by (unfold w; field; lra). rewrite sin_PI2. ring.
Qed.
Lemma Kp_norm : norm Kp ^ 2 - Kp 0%nat ^ 2 >= w ^ 2.
Proof.
  rewrite (ks_sq Kp), Kp_1. pose proof (pow2_ge_0 (Kp 2%nat)). nra.
Qed.

Lemma term_b_nonneg K : In K (K_lmn lat) ->
  0 <= op_b (wDJ K (RR_of (lat_lamb lat) (norm K))) (wDLJ K (RR_of (lat_lamb lat) (norm K))) c a1 r 1 2.
Proof.
  intros H. rewrite omitted_b. pose proof (factor_b K H). pose proof (sin_K K H).
  pose proof (RR_neg _ _ (cubic_lamb 2 L HL0) (norm_K_pos K H)) as HR. fold lat in HR.
  pose proof (pow2_ge_0 (norm K)). apply prod5_nonneg; lra.
Qed.
Lemma term_b_pos : 0 < op_b (wDJ Kp (RR_of (lat_lamb lat) (norm Kp))) (wDLJ Kp (RR_of (lat_lamb lat) (norm Kp))) c a1 r 1 2.
Proof.
  rewrite omitted_b, Kp_sin. pose proof (factor_b Kp Kp_in).
  pose proof (RR_neg _ _ (cubic_lamb 2 L HL0) (norm_K_pos Kp Kp_in)) as HR. fold lat in HR.
  pose proof (pow_lt _ 2 (norm_K_pos Kp Kp_in)). pose proof (w_pos L HL0) as Hw. fold w in Hw.
  apply prod5_pos; lra.
Qed.
Lemma factor_g K : In K (K_lmn lat) -> 0 < 1 - (a1 ^ 2 / 6 + a2 ^ 2 / 10) * norm K ^ 2.
Proof.
  intros H. pose proof (K_bound K H). pose proof (w_small a1 Ha1 Hbig). pose proof (w_small a2 Ha2 Hbig2).
  pose proof (pow2_ge_0 a1). pose proof (pow2_ge_0 a2).
  assert (a1 ^ 2 * norm K ^ 2 <= 8 * (a1 ^ 2 * w ^ 2))
    by (pose proof (Rmult_le_compat_l (a1 ^ 2) _ _ (pow2_ge_0 a1) (K_bound K H)); lra).
  assert (a2 ^ 2 * norm K ^ 2 <= 8 * (a2 ^ 2 * w ^ 2))
    by (pose proof (Rmult_le_compat_l (a2 ^ 2) _ _ (pow2_ge_0 a2) (K_bound K H)); lra). lra.
Qed.
Lemma term_g_nonneg K : In K (K_lmn lat) ->
  0 <= op_g (wDJ K (RR_of (lat_lamb lat) (norm K))) (wDLJ K (RR_of (lat_lamb lat) (norm K))) c a1 a2 r 0 0 0.
Proof.
  intros H. rewrite omitted_g. pose proof (factor_g K H). pose proof (sin_K K H).
  pose proof (RR_neg _ _ (cubic_lamb 2 L HL0) (norm_K_pos K H)) as HR. fold lat in HR.
  assert (0 <= norm K ^ 2 - K 0%nat ^ 2).
  { rewrite (ks_sq K). pose proof (pow2_ge_0 (K 1%nat)). pose proof (pow2_ge_0 (K 2%nat)). lra. }
  apply prod5_nonneg; lra.
Qed.
Lemma term_g_pos : 0 < op_g (wDJ Kp (RR_of (lat_lamb lat) (norm Kp))) (wDLJ Kp (RR_of (lat_lamb lat) (norm Kp))) c a1 a2 r 0 0 0.
Proof.
  rewrite omitted_g, Kp_sin. pose proof (factor_g Kp Kp_in).
  pose proof (RR_neg _ _ (cubic_lamb 2 L HL0) (norm_K_pos Kp Kp_in)) as HR. fold lat in HR.
  pose proof (w_pos L HL0) as Hw. fold w in Hw. pose proof Kp_norm. pose proof (pow_lt w 2 Hw).
  apply prod5_pos; lra.
Qed.
Lemma L3_pos : 0 < 1 / lat_L lat ^ 3.
Proof. unfold lat. rewrite (cubic_L 2 L HL0). apply Rdiv_lt_0_compat; [lra|apply pow_lt; lra]. Qed.

Lemma M12P_omits : M12P lat 1 2 r (norm r) a1 a2 c mu (fun X => norm (vadd r X))
  < op_b (gD lat) (gDLJ lat) c a1 r 1 2.
Proof.
  pose proof quarter_norm as EN. pose proof tiny_quarter as HT.
  rewrite (M12P_green lat r a1 a2 c mu) by (try lia; try apply quarter_off; rewrite EN; exact HT).
  unfold gD. unfold gDLJ. rewrite (op_b_lin c a1 r (1 / lat_L lat ^ 3)).
  rewrite <- (Rplus_0_r (op_b _ _ _ _ _ _ _)) at 1. apply Rplus_lt_compat_l. apply Rmult_lt_0_compat; [exact L3_pos|].
  unfold kD, kDLJ. rewrite (op_b_vsum (K_lmn lat) c a1 r (fun K l i j q => wDJ K (RR_of (lat_lamb lat) (norm K)) l i j q)
      (fun K l i j q => wDLJ K (RR_of (lat_lamb lat) (norm K)) l i j q)).
  exact (vsum_pos (K_lmn lat) _ Kp term_b_nonneg Kp_in term_b_pos).
Qed.
Lemma M13P_omits : M13P lat 0 0 0 r (norm r) a1 a2 c mu (fun X => norm (vadd r X))
  < op_g (gD lat) (gDLJ lat) c a1 a2 r 0 0 0.
Proof.
  pose proof quarter_norm as EN. pose proof tiny_quarter as HT.
  rewrite (M13P_green lat r a1 a2 c mu) by (try apply quarter_off; rewrite EN; exact HT).
  unfold gD. unfold gDLJ. rewrite (op_g_lin c a1 a2 r (1 / lat_L lat ^ 3)).
  rewrite <- (Rplus_0_r (op_g _ _ _ _ _ _ _ _ _)) at 1. apply Rplus_lt_compat_l. apply Rmult_lt_0_compat; [exact L3_pos|].
  unfold kD, kDLJ. rewrite (op_g_vsum (K_lmn lat) c a1 a2 r (fun K l i j q => wDJ K (RR_of (lat_lamb lat) (norm K)) l i j q)
      (fun K l i j q => wDLJ K (RR_of (lat_lamb lat) (norm K)) l i j q)).
  exact (vsum_pos (K_lmn lat) _ Kp term_g_nonneg Kp_in term_g_pos).
Qed.
End Omitted.
