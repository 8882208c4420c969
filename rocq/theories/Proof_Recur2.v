(** One reflection between spheres whose motion is given, in the units of the
    near-field coefficients. *)
From Coq Require Import Reals List Arith ZArith Bool Lra Lia.
From Verif Require Import Base Model_Mob Model_Close Model_Reflect Spec_Reflect Spec_Translate Spec_Recur Proof_Reflect3 Proof_Translate Proof_Translate2 Proof_Translate3 Proof_Recur1.
Local Open Scope R_scope.

(** ** The cancelling flow is determined *)
Lemma cancels_unique n a A B C D E F : (1 <= n)%nat -> 0 < a -> cancels n a A B C D E F ->
  A = - invert_A a n D F /\ B = - (a ^ (2 * n + 1) * E) /\ C = - invert_C a n D F.
Proof.
  intros Hn Ha Hc.
  assert (Hx : dot3 (v3 a 0 0) (v3 a 0 0) = a ^ 2) by (unfold dot3, v3; ring).
  pose proof (Hc 0 (v3 0 1 0) (v3 a 0 0) 1%nat ltac:(lia) Hx) as E1.
  pose proof (Hc 0 (v3 0 1 0) (v3 a 0 0) 2%nat ltac:(lia) Hx) as E2.
  pose proof (Hc 1 (v3 0 0 0) (v3 a 0 0) 0%nat ltac:(lia) Hx) as E3.
  unfold outside, inside in E1, E2, E3. rewrite Hx in E1, E2, E3. unfold far_grad, cross, v3 in E1, E2, E3.
  unfold invert_A, invert_C.
  assert (P : a ^ (2 * n + 1) = a ^ (2 * n - 1) * a ^ 2) by (rewrite <- pow_add; f_equal; lia).
  assert (P3 : a ^ (2 * n + 3) = a ^ (2 * n - 1) * a ^ 4) by (rewrite <- pow_add; f_equal; lia).
  assert (Q : 0 < a ^ (2 * n - 1)) by (apply pow_lt; exact Ha). rewrite P, P3 in *. set (q := a ^ (2 * n - 1)) in *. clearbody q.
  assert (HN : 1 <= INR n) by (change 1 with (INR 1); apply le_INR; exact Hn). set (N := INR n) in *. clearbody N. clear P P3 Hc Hx.
  set (al := A / (q * a ^ 2)). set (be := B / (q * a ^ 2)). set (ga := C / q).
  assert (EA : A = al * (q * a ^ 2)) by (unfold al; field; split; lra).
  assert (EB : B = be * (q * a ^ 2)) by (unfold be; field; split; lra).
  assert (EC : C = ga * q) by (unfold ga; field; lra). clearbody al be ga. subst A B C.
  assert (F1 : al - ga * ((N - 2) / (2 * N * (2 * N - 1))) + D + F * ((N + 3) / (2 * (N + 1) * (2 * N + 3))) * a ^ 2 = 0).
  { rewrite <- E1. field. repeat split; lra. }
  assert (F2 : be + E = 0).
  { apply (Rmult_eq_reg_l (- a)); [|lra]. rewrite Rmult_0_r, <- E2. field. repeat split; lra. }
  assert (F3 : - (2 * N + 1) * al + ga * ((2 * N + 1) * (N - 2) / (2 * N * (2 * N - 1)) + (N + 1) / (N * (2 * N - 1))) - F * (N / ((N + 1) * (2 * N + 3))) * a ^ 2 = 0).
  { apply (Rmult_eq_reg_l (/ a)); [|apply Rinv_neq_0_compat; lra]. rewrite Rmult_0_r, <- E3. field. repeat split; lra. }
  clear E1 E2 E3.
  assert (G : ga = - (N * (2 * N - 1) / (N + 1) * ((2 * N + 1) * D + a ^ 2 * F / 2))).
  { assert (S0 : ga * ((N + 1) / (N * (2 * N - 1))) + (2 * N + 1) * D + F * a ^ 2 / 2 = 0).
    { transitivity ((2 * N + 1) * (al - ga * ((N - 2) / (2 * N * (2 * N - 1))) + D + F * ((N + 3) / (2 * (N + 1) * (2 * N + 3))) * a ^ 2) +
        (- (2 * N + 1) * al + ga * ((2 * N + 1) * (N - 2) / (2 * N * (2 * N - 1)) + (N + 1) / (N * (2 * N - 1))) - F * (N / ((N + 1) * (2 * N + 3))) * a ^ 2)).
      - field. repeat split; lra.
      - rewrite F1, F3. ring. }
    transitivity (N * (2 * N - 1) / (N + 1) * (ga * ((N + 1) / (N * (2 * N - 1))) + (2 * N + 1) * D + F * a ^ 2 / 2) - N * (2 * N - 1) / (N + 1) * ((2 * N + 1) * D + a ^ 2 * F / 2)); [field; repeat split; lra|].
    rewrite S0. ring. }
  assert (AL : al = ga * ((N - 2) / (2 * N * (2 * N - 1))) - D - F * ((N + 3) / (2 * (N + 1) * (2 * N + 3))) * a ^ 2) by lra.
  assert (BE : be = - E) by lra. rewrite AL, G, BE. repeat split; field; repeat split; lra.
Qed.

(** ** Units and signs *)
Definition eps (m : Z) : R := if Z.eqb m 0 then 1 else - (1).
Lemma eps_sq m : eps m * eps m = 1.
Proof. unfold eps. destruct (Z.eqb m 0); ring. Qed.
Definition mu (m : Z) : R := INR (Z.abs_nat m).
Definition phys (m : Z) : kernel := mkKer
  (fun n s => g n s m)
  (fun n s => let x := INR n in let y := INR s in
     - eps m * (x * (4 * x ^ 2 - 1) / (x + 1)) * ((x + mu m) * (x - mu m) * ((x - 1) * (y - 2) - (y + 1)) / ((x + y) * x * (2 * x - 1)) - (y - 2) / 2) / (y * (2 * y - 1)))
  (fun n => let x := INR n in - eps m * (x * (2 * x - 1) / (2 * (x + 1))))
  (fun n s => let x := INR n in let y := INR s in - eps m * (x * (4 * x ^ 2 - 1) / (2 * (x + 1) * (2 * y + 1))))
  (fun n => let x := INR n in eps m * (mu m * unit_Q m * (4 * x ^ 2 - 1) / (x + 1)))
  (fun n s => let x := INR n in let y := INR s in eps m * (mu m / unit_Q m / ((1 + x) * y * x)))
  (fun n s => let x := INR n in let y := INR s in - eps m * (y / (1 + x)))
  (fun n => let x := INR n in - eps m * (2 * x / ((x + 1) * (2 * x + 3)))).

Lemma m1_pow2 a : (- (1)) ^ (a + a) = 1.
Proof. rewrite pow_add. apply pow_m1_sq. Qed.
Lemma mirror_step k m n s d : 0 < d -> (Z.abs_nat m <= n)%nat -> (Z.abs_nat m <= s)%nat ->
  power_m (- (1)) s m * sign_of (side k d (- d)) ^ (s + n) * mirror k s m = eps m * mirror (S k) n m.
Proof.
  intros Hd Hn Hs. rewrite power_m_val by exact Hs. unfold side, mirror. rewrite Nat.even_succ, <- Nat.negb_even.
  set (M := Z.abs_nat m) in *. fold (eps m). unfold sign_of, Rltb. destruct (Nat.even k); cbn [negb].
  - destruct (Rlt_dec d 0); [lra|]. rewrite Rmult_1_r, <- Rmult_assoc, eps_sq, Rmult_1_l, <- pow_add. apply parity.
    replace (s - M + (s + n))%nat with (n + M + 2 * (s - M))%nat by lia. apply Nat.even_add_mul_2.
  - destruct (Rlt_dec (- d) 0); [|lra]. rewrite pow1, !Rmult_1_r.
    rewrite (Rmult_comm _ (eps m * _)), Rmult_assoc, <- pow_add.
    replace (s + M + (s - M))%nat with (s + s)%nat by lia. rewrite m1_pow2, Rmult_1_r. reflexivity.
Qed.
Lemma side_abs k d : 0 < d -> Rabs (side k d (- d)) = d.
Proof. intros Hd. unfold side. destruct (Nat.even k); [apply Rabs_pos_eq; lra|rewrite Rabs_Ropp; apply Rabs_pos_eq; lra]. Qed.
Lemma side_next k x y : side (S k) x y = side k y x.
Proof. unfold side. rewrite Nat.even_succ, <- Nat.negb_even. destruct (Nat.even k); reflexivity. Qed.
Lemma part_sq j : part_sign j * part_sign j = 1.
Proof. unfold part_sign. destruct (Nat.eqb j 1); ring. Qed.
Lemma other_other j : (j = 1 \/ j = 2)%nat -> other (other j) = j.
Proof. intros [->| ->]; reflexivity. Qed.
Lemma part_other j : (j = 1 \/ j = 2)%nat -> part_sign (other j) = - part_sign j.
Proof. intros [->| ->]; unfold part_sign, other; cbn [Nat.eqb]; ring. Qed.
Lemma other_two j : (j = 1 \/ j = 2)%nat -> (other j = 1 \/ other j = 2)%nat.
Proof. intros [->| ->]; [right|left]; reflexivity. Qed.
Lemma sgn_mu m : IZR m = IZR (Z.sgn m) * mu m.
Proof. unfold mu. rewrite INR_IZR_INZ, <- mult_IZR. f_equal. lia. Qed.
Lemma unit_Q_pos m : 0 < unit_Q m.
Proof. unfold unit_Q. destruct (Z.eqb (Z.abs m) 2); lra. Qed.

Section Reflection.
Context (N : nat) (m : Z) (j : nat) (kappa : R) (k : nat) (a b d : R) (P V Q : nat -> R) (f f' : six).
Hypothesis (Hj : (j = 1 \/ j = 2)%nat) (Ha : 0 < a) (Hd : 0 < d).
Hypothesis (Hf : carries N m j kappa k b P V Q f) (Hr : reflected N m a (side k d (- d)) f f').
Let r := side k d (- d).
Let lo := lowest m.
Let sg n := kappa * eps m * mirror (S k) n m.
Lemma low_1 : (1 <= lo)%nat. Proof. unfold lo, lowest. lia. Qed.
Lemma low_m : (Z.abs_nat m <= lo)%nat. Proof. unfold lo, lowest. lia. Qed.
Lemma ninit_lo : ninit m = lo.
Proof. unfold lo, lowest, ninit. destruct (Z.eqb_spec m 0) as [->|Hm]; [reflexivity|]. lia. Qed.
Lemma weight_H n s c v : (lo <= n)%nat -> (lo <= s <= N)%nat -> c * H s m = kappa * mirror k s m * v ->
  translate_weight r n s m * c * H n m = sg n * v / d ^ (s + n + 1).
Proof.
  intros Hn Hs Hc. pose proof low_m as Lm. unfold translate_weight. fold r. unfold r at 2. rewrite side_abs by exact Hd.
  transitivity (power_m (- (1)) s m * sign_of r ^ (s + n) * (c * (FracH s n m * H n m)) / d ^ (s + n + 1)); [unfold Rdiv; ring|].
  rewrite FracH_val by lia. rewrite Hc. unfold sg. pose proof (mirror_step k m n s d Hd ltac:(lia) ltac:(lia)) as MS. fold r in MS.
  replace (kappa * eps m * mirror (S k) n m) with (kappa * (eps m * mirror (S k) n m)) by ring. rewrite <- MS. unfold Rdiv. ring.
Qed.
Lemma F_val n : (lo <= n <= N)%nat -> translate_F N r f j n m * H n m = sg n * tsum lo N (fun s => g n s m * (b ^ s * P s) / d ^ (s + n + 1)).
Proof.
  intros Hn. unfold translate_F. rewrite ninit_lo. unfold tsum. rewrite <- rsum_scal_r, <- rsum_scal_l. apply rsum_ext. intros i Hi. set (s := (lo + i)%nat).
  destruct (Hf s ltac:(unfold s, lo in *; lia)) as (HC & _ & _).
  transitivity (g n s m * (translate_weight r n s m * cC f j s m * H n m)); [ring|].
  rewrite (weight_H n s (cC f j s m) (b ^ s * P s)); [unfold Rdiv; ring|lia|unfold s; lia|rewrite HC; ring].
Qed.
Lemma D_val n : (lo <= n <= N)%nat -> translate_D N r f j n m * H n m =
  sg n * tsum lo N (fun s => let x := INR n in let y := INR s in g n s m *
    (b ^ (s + 2) * V s / (2 * (2 * y + 1)) - mu m * d * unit_Q m * b ^ (s + 1) * Q s / x
     + ((x + mu m) * (x - mu m) * ((x - 1) * (y - 2) - (y + 1)) / ((x + y) * x * (2 * x - 1)) - (y - 2) / 2) / (y * (2 * y - 1)) * d ^ 2 * b ^ s * P s) / d ^ (s + n + 1)).
Proof.
  intros Hn. unfold translate_D. rewrite ninit_lo. unfold tsum. rewrite <- rsum_scal_r, <- rsum_scal_l. apply rsum_ext. intros i Hi. set (s := (lo + i)%nat).
  destruct (Hf s ltac:(unfold s, lo in *; lia)) as (HC & HA & HB). cbv zeta. pose proof low_1 as L1. pose proof low_m as Lm.
  assert (Hx : 1 <= INR n) by (change 1 with (INR 1); apply le_INR; lia).
  assert (Hy : 1 <= INR s) by (change 1 with (INR 1); apply le_INR; unfold s; lia).
  assert (Rr : side k 1 (- (1)) * r = d) by (unfold r, side; destruct (Nat.even k); ring).
  transitivity (translate_weight r n s m * (g n s m * cA f j s m + part_sign j * (IZR m * g n s m * r * cB f (other j) s m / INR n) + translate_C r n s m (cC f j s m)) * H n m); [reflexivity|].
  rewrite (weight_H n s _ (g n s m *
    (b ^ (s + 2) * V s / (2 * (2 * INR s + 1)) - mu m * d * unit_Q m * b ^ (s + 1) * Q s / INR n
     + ((INR n + mu m) * (INR n - mu m) * ((INR n - 1) * (INR s - 2) - (INR s + 1)) / ((INR n + INR s) * INR n * (2 * INR n - 1)) - (INR s - 2) / 2) / (INR s * (2 * INR s - 1)) * d ^ 2 * b ^ s * P s)));
    [unfold Rdiv; ring|lia|unfold s; lia|].
  unfold translate_C. rewrite (g_below s m ltac:(unfold s; lia)) by lia. unfold r at 2. rewrite side_abs by exact Hd.
  set (X := g n s m * (INR n + INR (Z.abs_nat m)) / (INR s + INR n) * (INR n - IZR (Z.abs m)) * ((INR n - 1) * (INR s - 2) - (INR s + 1)) / (INR n * (2 * INR n - 1)) - g n s m * (INR s - 2) / 2).
  transitivity (g n s m * (cA f j s m * H s m) + part_sign j * IZR m * g n s m * r * (cB f (other j) s m * H s m) / INR n + X * d ^ 2 * (cC f j s m * H s m) / (INR s * (2 * INR s - 1))); [unfold Rdiv; ring|].
  rewrite HA, HB, HC. unfold X. clear X.
  assert (Sg : part_sign j * IZR m * g n s m * r * - (part_sign j * IZR (Z.sgn m) * side k 1 (- (1)) * unit_Q m * kappa * mirror k s m * b ^ (s + 1) * Q s) / INR n
     = - (g n s m * (mu m * (side k 1 (- (1)) * r) * unit_Q m * kappa * mirror k s m * b ^ (s + 1) * Q s / INR n))).
  { assert (S2 : IZR m * IZR (Z.sgn m) = mu m) by (unfold mu; rewrite INR_IZR_INZ, <- mult_IZR; f_equal; lia).
    transitivity (- (g n s m * ((IZR m * IZR (Z.sgn m)) * (part_sign j * part_sign j) * (side k 1 (- (1)) * r) * unit_Q m * kappa * mirror k s m * b ^ (s + 1) * Q s / INR n))); [unfold Rdiv; ring|].
    rewrite S2, part_sq. unfold Rdiv. ring. }
  rewrite Sg.
  fold (mu m). replace (IZR (Z.abs m)) with (mu m) by (unfold mu; rewrite INR_IZR_INZ; f_equal; lia). rewrite Rr.
  field. repeat split; lra.
Qed.
Lemma E_val n : (lo <= n <= N)%nat -> translate_E N r f (other j) n m * H n m =
  sg n * (part_sign j * IZR (Z.sgn m) * side k 1 (- (1))) * tsum lo N (fun s => let x := INR n in let y := INR s in g n s m *
    (y / (1 + x) * unit_Q m * b ^ (s + 1) * Q s - mu m * d * b ^ s * P s / ((1 + x) * y * x)) / d ^ (s + n + 1)).
Proof.
  intros Hn. unfold translate_E. rewrite ninit_lo. unfold tsum. rewrite <- rsum_scal_r, <- rsum_scal_l. apply rsum_ext. intros i Hi. set (s := (lo + i)%nat).
  destruct (Hf s ltac:(unfold s, lo in *; lia)) as (HC & HA & HB). cbv zeta. pose proof low_1 as L1. pose proof low_m as Lm.
  assert (Hx : 1 <= INR n) by (change 1 with (INR 1); apply le_INR; lia).
  assert (Hy : 1 <= INR s) by (change 1 with (INR 1); apply le_INR; unfold s; lia).
  assert (Rr : r = side k 1 (- (1)) * d) by (unfold r, side; destruct (Nat.even k); ring).
  rewrite (part_other j Hj), (other_other j Hj).
  transitivity (g n s m * (translate_weight r n s m * (- (INR s / (1 + INR n)) * cB f (other j) s m + - part_sign j * (IZR m * r * cC f j s m / ((1 + INR n) * INR s * INR n))) * H n m)); [unfold Rdiv; ring|].
  rewrite (weight_H n s _ (part_sign j * IZR (Z.sgn m) * side k 1 (- (1)) * (INR s / (1 + INR n) * unit_Q m * b ^ (s + 1) * Q s - mu m * d * b ^ s * P s / ((1 + INR n) * INR s * INR n))));
    [unfold Rdiv; ring|lia|unfold s; lia|].
  rewrite Rmult_plus_distr_r.
  replace (- (INR s / (1 + INR n)) * cB f (other j) s m * H s m) with (- (INR s / (1 + INR n)) * (cB f (other j) s m * H s m)) by ring.
  replace (- part_sign j * (IZR m * r * cC f j s m / ((1 + INR n) * INR s * INR n)) * H s m) with (- part_sign j * IZR m * r * (cC f j s m * H s m) / ((1 + INR n) * INR s * INR n)) by (unfold Rdiv; ring).
  rewrite HB, HC, Rr, (sgn_mu m). field. repeat split; lra.
Qed.

Let x := a / d.
Let y := b / d.
Lemma pow_x i : x ^ i = a ^ i / d ^ i.
Proof. unfold x, Rdiv. rewrite Rpow_mult_distr, pow_inv. reflexivity. Qed.
Lemma pow_y i : y ^ i = b ^ i / d ^ i.
Proof. unfold y, Rdiv. rewrite Rpow_mult_distr, pow_inv. reflexivity. Qed.
Definition P' (n : nat) : R := let k_ := phys m in tsum lo N (fun s => c_ k_ n s *
    (kP k_ n s * (x ^ (n - 1) * y ^ s * P s) + kF k_ n * (x ^ (n + 1) * y ^ s * P s)
     + kV k_ n s * (x ^ (n - 1) * y ^ (s + 2) * V s) + kQ k_ n * (x ^ (n - 1) * y ^ (s + 1) * Q s))).
Definition Q' (n : nat) : R := let k_ := phys m in tsum lo N (fun s => c_ k_ n s *
    (lQ k_ n s * (x ^ n * y ^ (s + 1) * Q s) + lP k_ n s * (x ^ n * y ^ s * P s))).
Definition V' (n : nat) : R := let k_ := phys m in P' n + kv k_ n * tsum lo N (fun s => c_ k_ n s * (x ^ (n + 1) * y ^ s * P s)).
Lemma pw (z : R) i : z ^ (S i) = z * z ^ i. Proof. reflexivity. Qed.
Lemma tsum_scal c h : tsum lo N (fun s => c * h s) = c * tsum lo N h.
Proof. unfold tsum. apply rsum_scal_l. Qed.
Lemma tsum_plus h h' : tsum lo N (fun s => h s + h' s) = tsum lo N h + tsum lo N h'.
Proof. unfold tsum. apply rsum_plus. Qed.
Lemma reflection_step : carries N m j kappa (S k) a P' V' Q' f'.
Proof.
  intros n Hn. pose proof low_1 as L1. pose proof low_m as Lm. fold lo in Hn.
  destruct (cancels_unique n a _ _ _ _ _ _ ltac:(lia) Ha (Hr j n Hj Hn)) as (EA & _ & EC).
  destruct (cancels_unique n a _ _ _ _ _ _ ltac:(lia) Ha (Hr (other j) n (other_two j Hj) Hn)) as (_ & EB & _).
  fold r in EA, EB, EC. rewrite EA, EB, EC. clear EA EB EC.
  pose proof (F_val n Hn) as HF. pose proof (D_val n Hn) as HD. pose proof (E_val n Hn) as HE.
  assert (Hx : 1 <= INR n) by (change 1 with (INR 1); apply le_INR; lia).
  set (SD := tsum lo N _) in HD. set (SF := tsum lo N _) in HF. set (SE := tsum lo N _) in HE.
  assert (KP : P' n = - eps m * (INR n * (2 * INR n - 1) * a ^ (n - 1) / (2 * (INR n + 1))) * (2 * (2 * INR n + 1) * SD + a ^ 2 * SF)).
  { unfold P', SD, SF. cbv zeta.
    transitivity (tsum lo N (fun s => (- eps m * (INR n * (2 * INR n - 1) * a ^ (n - 1) / (2 * (INR n + 1))) * (2 * (2 * INR n + 1))) *
        (g n s m * (b ^ (s + 2) * V s / (2 * (2 * INR s + 1)) - mu m * d * unit_Q m * b ^ (s + 1) * Q s / INR n
           + ((INR n + mu m) * (INR n - mu m) * ((INR n - 1) * (INR s - 2) - (INR s + 1)) / ((INR n + INR s) * INR n * (2 * INR n - 1)) - (INR s - 2) / 2) / (INR s * (2 * INR s - 1)) * d ^ 2 * b ^ s * P s) / d ^ (s + n + 1))
        + (- eps m * (INR n * (2 * INR n - 1) * a ^ (n - 1) / (2 * (INR n + 1))) * a ^ 2) * (g n s m * (b ^ s * P s) / d ^ (s + n + 1)))).
    2:{ rewrite tsum_plus, !tsum_scal. ring. }
    unfold tsum. apply rsum_ext. intros i Hi. set (s := (lo + i)%nat).
    assert (Hy : 1 <= INR s) by (change 1 with (INR 1); apply le_INR; unfold s; lia).
    cbn [phys c_ kP kF kV kQ]. rewrite !pow_x, !pow_y.
    replace (s + n + 1)%nat with ((n - 1) + s + 2)%nat by lia. replace (n + 1)%nat with ((n - 1) + 2)%nat by lia. rewrite !pow_add.
    assert (Pd : 0 < d ^ (n - 1)) by (apply pow_lt; exact Hd). assert (Qd : 0 < d ^ s) by (apply pow_lt; exact Hd).
    set (d1 := d ^ (n - 1)) in *. set (d2 := d ^ s) in *. clearbody d1 d2. field. repeat split; lra. }
  assert (KF : tsum lo N (fun s => c_ (phys m) n s * (x ^ (n + 1) * y ^ s * P s)) = a ^ (n + 1) * SF).
  { unfold SF. rewrite <- tsum_scal. unfold tsum. apply rsum_ext. intros i Hi. set (s := (lo + i)%nat). cbn [phys c_]. rewrite !pow_x, !pow_y.
    replace (s + n + 1)%nat with (s + (n + 1))%nat by lia. rewrite (pow_add d s). assert (Pd : 0 < d ^ (n + 1)) by (apply pow_lt; exact Hd). assert (Qd : 0 < d ^ s) by (apply pow_lt; exact Hd).
    field. split; lra. }
  assert (KV : V' n = P' n + kv (phys m) n * (a ^ (n + 1) * SF)) by (unfold V'; cbv zeta; rewrite KF; reflexivity).
  assert (KQ : Q' n = - eps m / unit_Q m * a ^ n * SE).
  { unfold Q', SE. cbv zeta. rewrite <- tsum_scal. unfold tsum. apply rsum_ext. intros i Hi. set (s := (lo + i)%nat).
    assert (Hy : 1 <= INR s) by (change 1 with (INR 1); apply le_INR; unfold s; lia). pose proof (unit_Q_pos m) as Uq.
    cbn [phys c_ lP lQ]. rewrite !pow_x, !pow_y. replace (s + n + 1)%nat with (n + s + 1)%nat by lia. rewrite !pow_add, pow_1.
    assert (Pd : 0 < d ^ n) by (apply pow_lt; exact Hd). assert (Qd : 0 < d ^ s) by (apply pow_lt; exact Hd).
    set (d1 := d ^ n) in *. set (d2 := d ^ s) in *. clearbody d1 d2. field. repeat split; lra. }
  pose proof (eps_sq m) as E2. unfold sg in HF, HD, HE.
  assert (A1 : a ^ (2 * n - 1) = a ^ (n - 1) * a ^ n) by (rewrite <- pow_add; f_equal; lia).
  assert (A2 : a ^ (2 * n + 1) = a ^ (n + 1) * a ^ n) by (rewrite <- pow_add; f_equal; lia).
  assert (A3 : a ^ n = a ^ (n - 1) * a) by (rewrite <- (pow_1 a) at 3; rewrite <- pow_add; f_equal; lia).
  assert (A4 : a ^ (n + 1) = a ^ n * a) by (rewrite pow_add, pow_1; reflexivity).
  assert (A5 : a ^ (n + 2) = a ^ n * a * a) by (rewrite pow_add; cbn [pow]; ring).
  split; [|split].
  - rewrite KP. unfold invert_C.
    transitivity (- (INR n * (2 * INR n - 1) * a ^ (2 * n - 1) / (2 * (INR n + 1)) * (2 * (2 * INR n + 1) * (translate_D N r f j n m * H n m) + a ^ 2 * (translate_F N r f j n m * H n m)))); [unfold Rdiv; ring|].
    rewrite HD, HF, A1. unfold Rdiv. ring.
  - rewrite KV, KP. unfold invert_A. cbn [phys kv].
    transitivity (- (INR n * a ^ (2 * n + 1) / (4 * (INR n + 1) * (2 * INR n + 3)) * (2 * (2 * INR n - 1) * (2 * INR n + 3) * (translate_D N r f j n m * H n m) + (2 * INR n + 1) * a ^ 2 * (translate_F N r f j n m * H n m)))); [unfold Rdiv; ring|].
    rewrite HD, HF, A2, A5, A4, A3. field. repeat split; lra.
  - rewrite KQ.
    replace (- (a ^ (2 * n + 1) * translate_E N r f (other j) n m) * H n m) with (- (a ^ (2 * n + 1) * (translate_E N r f (other j) n m * H n m))) by ring.
    rewrite HE, A2, A4. rewrite side_next. unfold side. pose proof (unit_Q_pos m) as Uq. destruct (Nat.even k); field; lra.
Qed.
End Reflection.
