(** Closed forms of the program's tables and the translation of one harmonic. *)
From Coq Require Import Reals ZArith Arith Lia Lra Bool.
From Verif Require Import Base Model_Mob Model_Close Model_Reflect Spec_Reflect Spec_Translate Proof_Reflect3 Proof_Translate.
Local Open Scope R_scope.

Lemma fact_S n : INR (fact (S n)) = (INR n + 1) * INR (fact n).
Proof. change (fact (S n)) with (S n * fact n)%nat. rewrite mult_INR, S_INR. reflexivity. Qed.

(** ** g(nu,n,m) = (n+nu)! / ((n-|m|)! (nu+|m|)!) *)
Lemma g_down_val nu n d : (d <= n)%nat -> g_down nu n d * (INR (fact d) * INR (fact (nu + (n - d)))) = INR (fact (n + nu)).
Proof.
  induction d as [|d IH]; intros Hd.
  - cbn [g_down]. replace (nu + (n - 0))%nat with (n + nu)%nat by lia. change (fact 0) with 1%nat. change (INR 1) with 1. ring.
  - cbn [g_down]. specialize (IH ltac:(lia)). replace (nu + (n - d))%nat with (S (nu + (n - S d))) in IH by lia. rewrite fact_S in IH. rewrite fact_S. rewrite plus_INR in IH.
    rewrite minus_INR in * by lia. rewrite S_INR in *. pose proof (pos_INR d). rewrite <- IH. field. lra.
Qed.
Lemma g_zero_val nu n : g_zero nu n * (INR (fact n) * INR (fact nu)) = INR (fact (n + nu)).
Proof.
  induction n as [|n IH]; [cbn [g_zero Nat.add]; change (fact 0) with 1%nat; change (INR 1) with 1; ring|].
  cbn [g_zero]. replace (S n + nu)%nat with (S (n + nu)) by lia. rewrite !fact_S, plus_INR, <- IH, S_INR. pose proof (pos_INR n). field. lra.
Qed.
Lemma g_up_val nu n d : (d < n)%nat -> g_up nu n d * (INR (fact d) * INR (fact (nu + (n - d)))) = INR (fact (n + nu)).
Proof.
  induction d as [|d IH]; intros Hd.
  - cbn [g_up]. replace (nu + (n - 0))%nat with (n + nu)%nat by lia. change (fact 0) with 1%nat. change (INR 1) with 1. ring.
  - specialize (IH ltac:(lia)). replace (nu + (n - d))%nat with (S (nu + (n - S d))) in IH by lia. rewrite !fact_S in IH. rewrite fact_S. rewrite plus_INR in IH.
    rewrite minus_INR in * by lia. rewrite S_INR in *. rewrite <- IH. destruct d as [|d].
    + cbn [g_up]. cbn [INR]. field.
    + change (g_up nu n (S (S d))) with ((INR nu - (- INR n + INR (S d))) * g_up nu n (S d) / (INR n + (- INR n + INR (S d)) + 1)).
      pose proof (pos_INR (S d)). field. lra.
Qed.
Lemma g_val nu n m : (Z.abs_nat m <= n)%nat ->
  g nu n m = INR (fact (n + nu)) / (INR (fact (n - Z.abs_nat m)) * INR (fact (nu + Z.abs_nat m))).
Proof.
  intros Hm. pose proof (fact_nz (n - Z.abs_nat m)) as F1. pose proof (fact_nz (nu + Z.abs_nat m)) as F2.
  apply (Rmult_eq_reg_r (INR (fact (n - Z.abs_nat m)) * INR (fact (nu + Z.abs_nat m)))); [|apply Rmult_integral_contrapositive; split; assumption].
  unfold Rdiv. rewrite Rmult_assoc, Rinv_l, Rmult_1_r by (apply Rmult_integral_contrapositive; split; assumption).
  destruct m as [|p|p]; unfold g; cbn [Z.abs_nat] in *.
  - rewrite Nat.sub_0_r, Nat.add_0_r. apply g_zero_val.
  - destruct (Nat.leb_spec (Pos.to_nat p) n); [|lia]. rewrite <- (g_down_val nu n (n - Pos.to_nat p)) by lia.
    replace (n - (n - Pos.to_nat p))%nat with (Pos.to_nat p) by lia. reflexivity.
  - destruct (Nat.leb_spec (Pos.to_nat p) n); [|lia]. rewrite <- (g_up_val nu n (n - Pos.to_nat p)) by lia.
    replace (n - (n - Pos.to_nat p))%nat with (Pos.to_nat p) by lia. reflexivity.
Qed.

(** ** FracH(n,nu,m) = H(n,m)/H(nu,m) *)
Definition ratio (im n : nat) : R := root (2 * n + 1) * fact_root (n - im) / fact_root (n + im).
Lemma ratio_nz im n : ratio im n <> 0.
Proof.
  unfold ratio. pose proof (root_pos (2 * n + 1) ltac:(lia)). pose proof (fact_root_pos (n - im)). pose proof (fact_root_pos (n + im)).
  apply Rgt_not_eq. apply Rdiv_lt_0_compat; [apply Rmult_lt_0_compat; assumption|assumption].
Qed.
Lemma ratio_step im n : (im <= n)%nat ->
  ratio im (S n) * (root (2 * n + 1) * root (n + im + 1)) = root (2 * n + 3) * root (n - im + 1) * ratio im n.
Proof.
  intros Hn. unfold ratio. replace (S n - im)%nat with (S (n - im)) by lia. replace (S n + im)%nat with (S (n + im)) by lia. cbn [fact_root].
  replace (2 * S n + 1)%nat with (2 * n + 3)%nat by lia. replace (n - im + 1)%nat with (S (n - im)) by lia. replace (n + im + 1)%nat with (S (n + im)) by lia.
  pose proof (fact_root_pos (n + im)). pose proof (root_pos (S (n + im)) ltac:(lia)). field. split; lra.
Qed.
Lemma FracH_down_val im n d : (d + im <= n)%nat -> FracH_down im n d * ratio im (n - d) = ratio im n.
Proof.
  induction d as [|d IH]; intros Hd; [cbn [FracH_down]; rewrite Nat.sub_0_r; ring|].
  cbn [FracH_down]. specialize (IH ltac:(lia)). pose proof (ratio_step im (n - S d) ltac:(lia)) as St. replace (S (n - S d)) with (n - d)%nat in St by lia.
  pose proof (root_pos (2 * (n - S d) + 1) ltac:(lia)). pose proof (root_pos (n - S d + im + 1) ltac:(lia)).
  rewrite <- IH. apply (Rmult_eq_reg_r (root (2 * (n - S d) + 1) * root (n - S d + im + 1))); [|apply Rgt_not_eq, Rmult_lt_0_compat; assumption].
  rewrite (Rmult_assoc (FracH_down im n d)), St. field. split; lra.
Qed.
Lemma FracH_up_val im n d : (im <= n)%nat -> FracH_up im n d * ratio im (n + d) = ratio im n.
Proof.
  intros Hn. induction d as [|d IH]; [cbn [FracH_up]; rewrite Nat.add_0_r; ring|].
  cbn [FracH_up]. pose proof (ratio_step im (n + d) ltac:(lia)) as St. replace (n + S d)%nat with (S (n + d)) by lia.
  replace (2 * S (n + d) - 1)%nat with (2 * (n + d) + 1)%nat by lia. replace (S (n + d) + im)%nat with (n + d + im + 1)%nat by lia.
  replace (2 * S (n + d) + 1)%nat with (2 * (n + d) + 3)%nat by lia. replace (S (n + d) - im)%nat with (n + d - im + 1)%nat by lia.
  pose proof (root_pos (2 * (n + d) + 3) ltac:(lia)). pose proof (root_pos (n + d - im + 1) ltac:(lia)).
  rewrite <- IH. apply (Rmult_eq_reg_l (root (2 * (n + d) + 3) * root (n + d - im + 1))); [|apply Rgt_not_eq, Rmult_lt_0_compat; assumption].
  replace (root (2 * (n + d) + 3) * root (n + d - im + 1) * (FracH_up im n d * ratio im (n + d))) with (FracH_up im n d * (root (2 * (n + d) + 3) * root (n + d - im + 1) * ratio im (n + d))) by ring.
  rewrite <- St. field. split; lra.
Qed.
Lemma FracH_val n nu m : (Z.abs_nat m <= n)%nat -> (Z.abs_nat m <= nu)%nat -> FracH n nu m * H nu m = H n m.
Proof.
  intros Hn Hnu. pose proof PI_RGT_0 as Pp. assert (Sq : 0 < sqrt PI) by (apply sqrt_lt_R0; exact Pp).
  assert (E : forall k, H k m = ratio (Z.abs_nat m) k / (2 * sqrt PI)) by (intros k; reflexivity). rewrite !E.
  assert (G : FracH n nu m * ratio (Z.abs_nat m) nu = ratio (Z.abs_nat m) n).
  { unfold FracH. destruct (Nat.leb_spec nu n).
    - replace nu with (n - (n - nu))%nat at 2 by lia. apply FracH_down_val. lia.
    - replace nu with (n + (nu - n))%nat at 2 by lia. apply FracH_up_val. lia. }
  rewrite <- G. field. lra.
Qed.

(** ** Signs and powers *)
Lemma parity a b : Nat.even a = Nat.even b -> (- (1)) ^ a = (- (1)) ^ b.
Proof.
  assert (E : forall n, (- (1)) ^ n = if Nat.even n then 1 else - (1)).
  { induction n as [|n IH]; [reflexivity|]. cbn [pow]. rewrite IH, Nat.even_succ, <- Nat.negb_even. destruct (Nat.even n); cbn [negb]; ring. }
  intros Eq. rewrite !E, Eq. reflexivity.
Qed.
Lemma power_m_val n m : (Z.abs_nat m <= n)%nat -> power_m (- (1)) n m = (- (1)) ^ (n - Z.abs_nat m).
Proof.
  intros Hm. unfold power_m. apply parity. destruct (Z.le_gt_cases 0 m).
  - replace (Z.abs_nat (Z.of_nat n + m)) with (n - Z.abs_nat m + 2 * Z.abs_nat m)%nat by lia. rewrite Nat.even_add_mul_2. reflexivity.
  - replace (Z.abs_nat (Z.of_nat n + m)) with (n - Z.abs_nat m)%nat by lia. reflexivity.
Qed.
Lemma pow_m1_sq a : (- (1)) ^ a * (- (1)) ^ a = 1.
Proof. rewrite <- Rpow_mult_distr. replace (- (1) * - (1)) with 1 by ring. apply pow1. Qed.
(** The sign and the powers of the distance. *)
Lemma weight_sign n M k r xi : (M <= n)%nat -> r <> 0 ->
  (- (1)) ^ (n - M) * sign_of r ^ (n + (M + k)) / Rabs r ^ (n + (M + k) + 1) * xi ^ k =
  r ^ (n - M) / Rabs r ^ (2 * n + 1) * ((- (1)) ^ k * (xi / r) ^ k).
Proof.
  intros Hn Hr. unfold sign_of, Rltb. destruct (Rlt_dec r 0) as [Neg|Pos].
  - rewrite Rabs_left by exact Neg. set (a := - r). assert (a <> 0) by (unfold a; lra). replace r with (- (1) * a) by (unfold a; ring).
    rewrite pow1. rewrite (Rpow_mult_distr (- (1)) a). replace (xi / (- (1) * a)) with (- (1) * (xi / a)) by (field; assumption). rewrite (Rpow_mult_distr (- (1)) (xi / a)).
    replace ((- (1)) ^ k * ((- (1)) ^ k * (xi / a) ^ k)) with ((- (1)) ^ k * (- (1)) ^ k * (xi / a) ^ k) by ring. rewrite pow_m1_sq.
    unfold Rdiv at 3. rewrite Rpow_mult_distr, pow_inv.
    replace (2 * n + 1)%nat with ((n - M) + (n + M + 1))%nat by lia. replace (n + (M + k) + 1)%nat with ((n + M + 1) + k)%nat by lia. rewrite !pow_add.
    field. repeat split; try assumption; apply pow_nonzero; assumption.
  - assert (P : 0 < r) by lra. rewrite Rabs_pos_eq by lra.
    replace (n + (M + k))%nat with ((n - M) + (2 * M + k))%nat at 1 by lia. rewrite (pow_add (- (1)) (n - M)).
    replace ((- (1)) ^ (n - M) * ((- (1)) ^ (n - M) * (- (1)) ^ (2 * M + k))) with ((- (1)) ^ (n - M) * (- (1)) ^ (n - M) * (- (1)) ^ (2 * M + k)) by ring. rewrite pow_m1_sq.
    rewrite (pow_add (- (1)) (2 * M)), pow_1_even. unfold Rdiv at 3. rewrite Rpow_mult_distr, pow_inv.
    replace (2 * n + 1)%nat with ((n - M) + (n + M + 1))%nat by lia. replace (n + (M + k) + 1)%nat with ((n + M + 1) + k)%nat by lia. rewrite !pow_add.
    field. repeat split; try lra; apply pow_nonzero; lra.
Qed.
(** The weight of one harmonic, at a point of the axis. *)
Lemma weight_val r n m k xi : (Z.abs_nat m <= n)%nat -> r <> 0 ->
  translate_weight r (Z.abs_nat m + k) n m * g (Z.abs_nat m + k) n m * psi H (Z.abs_nat m + k) m xi =
  phi H n m r * (bin (S (n + Z.abs_nat m)) k * (xi / r) ^ k).
Proof.
  intros Hn Hr. set (M := Z.abs_nat m) in *. unfold translate_weight. rewrite power_m_val by exact Hn. fold M.
  rewrite g_val by exact Hn. fold M. unfold phi, psi, lead. fold M. replace (M + k - M)%nat with k by lia.
  rewrite bin_val. pose proof (weight_sign n M k r xi Hn Hr) as W. rewrite <- (FracH_val n (M + k) m) by (unfold M; lia).
  replace (n + (M + k))%nat with (n + M + k)%nat in * by lia.
  pose proof (fact_nz (n - M)) as N1. pose proof (fact_nz M) as N2. pose proof (fact_nz k) as N3. pose proof (fact_nz (n + M)) as N4. pose proof (fact_nz (M + k + M)) as N5.
  assert (P2 : 2 ^ M <> 0) by (apply pow_nonzero; lra).
  assert (Q : Rabs r ^ (n + M + k + 1) <> 0) by (apply pow_nonzero, Rabs_no_R0; exact Hr).
  assert (Q2 : Rabs r ^ (2 * n + 1) <> 0) by (apply pow_nonzero, Rabs_no_R0; exact Hr).
  transitivity (FracH n (M + k) m * H (M + k) m * INR (fact (n + M + k)) / (INR (fact (n - M)) * 2 ^ M * INR (fact M) * INR (fact k)) *
    ((- (1)) ^ (n - M) * sign_of r ^ (n + M + k) / Rabs r ^ (n + M + k + 1) * xi ^ k)).
  { field. repeat split; assumption. }
  rewrite W. set (tk := (xi / r) ^ k). field. repeat split; assumption.
Qed.
