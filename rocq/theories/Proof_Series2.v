From Coq Require Import Reals Arith Lra Lia Bool.
From Verif Require Import Base Spec_Nearfield Spec_Series Proof_Series1.
Local Open Scope R_scope.

(** ** The series *)
Lemma cv_tail (u v : nat -> R) l n0 : (forall n, (n0 <= n)%nat -> u n = v n) -> Un_cv u l -> Un_cv v l.
Proof. intros E Hu e He. destruct (Hu e He) as [n1 Hn]. exists (Nat.max n0 n1). intros n Hg. rewrite <- E by lia. apply Hn. lia. Qed.
Lemma cv_next (u : nat -> R) l : Un_cv (fun n => u (S n)) l -> Un_cv u l.
Proof. intros Hu e He. destruct (Hu e He) as [n0 Hn]. exists (S n0). intros n Hg. destruct n as [|n]; [lia|]. apply Hn. lia. Qed.
Lemma cv_S (u : nat -> R) l : Un_cv u l -> Un_cv (fun n => u (S n)) l.
Proof. intros Hu e He. destruct (Hu e He) as [n0 Hn]. exists n0. intros n Hg. apply Hn. lia. Qed.
Lemma rsum_shift K (f : nat -> R) : rsum (S K) f = f 0%nat + rsum K (fun j => f (S j)).
Proof. induction K as [|K IH]; [cbn [rsum]; ring|]. change (rsum (S (S K)) f) with (rsum (S K) f + f (S K)). rewrite IH. cbn [rsum]. ring. Qed.

Lemma sums_split ev c c' asy J x G : (forall j, (j < J)%nat -> c' (order ev j) = c (order ev j)) -> (forall j, (J <= j)%nat -> c' (order ev j) = asy (order ev j)) ->
  sums_to ev asy x G -> sums_to ev c' x (rsum J (fun j => (c (order ev j) - asy (order ev j)) * x ^ order ev j) + G).
Proof.
  intros H1 H2 HG. unfold sums_to.
  apply (cv_tail (fun K => rsum J (fun j => (c (order ev j) - asy (order ev j)) * x ^ order ev j) + rsum K (fun j => asy (order ev j) * x ^ order ev j)) _ _ J).
  - intros n Hn. replace n with (J + (n - J))%nat by lia. generalize (n - J)%nat as d. intros d. clear n Hn. induction d as [|d IH].
    + rewrite Nat.add_0_r. rewrite <- rsum_plus. apply rsum_ext. intros j Hj. rewrite H1 by exact Hj. ring.
    + rewrite Nat.add_succ_r. cbn [rsum]. rewrite <- IH, H2 by lia. ring.
  - apply (CV_plus (fun _ => _) _ _ G); [apply cv_const|exact HG].
Qed.
Lemma sums_unique ev c x v w : sums_to ev c x v -> sums_to ev c x w -> v = w.
Proof. apply UL_sequence. Qed.

Definition logy (y : R) := - ln (1 - y).
Lemma e1_cv x : 0 < x < 1 -> Un_cv (fun K => rsum K (fun j => x ^ order true j)) (x ^ 2 / (1 - x ^ 2)).
Proof.
  intros Hx. assert (Hy : 0 <= x ^ 2 < 1) by nra. apply (cv_ext (fun K => x ^ 2 * rsum K (fun j => (x ^ 2) ^ j))).
  - intros K. rewrite <- rsum_scal_l. apply rsum_ext. intros j Hj. unfold order. rewrite <- pow_mult, <- pow_add. f_equal. lia.
  - apply cv_scal, geometric_cv. exact Hy.
Qed.
Lemma o1_cv x : 0 < x < 1 -> Un_cv (fun K => rsum K (fun j => x ^ order false j)) (x / (1 - x ^ 2)).
Proof.
  intros Hx. assert (Hy : 0 <= x ^ 2 < 1) by nra. apply (cv_ext (fun K => x * rsum K (fun j => (x ^ 2) ^ j))).
  - intros K. rewrite <- rsum_scal_l. apply rsum_ext. intros j Hj. unfold order. rewrite <- pow_mult. rewrite Nat.add_1_r. reflexivity.
  - apply cv_scal, geometric_cv. exact Hy.
Qed.
Lemma INR_even j : INR (2 * j + 2) = 2 * INR (S j).
Proof. replace (2 * j + 2)%nat with (2 * S j)%nat by lia. rewrite mult_INR. reflexivity. Qed.
Lemma INR_odd j : INR (2 * j + 1) = 2 * INR j + 1.
Proof. rewrite plus_INR, mult_INR. reflexivity. Qed.
Lemma Sj_pos j : 0 < INR (S j). Proof. apply lt_0_INR. lia. Qed.
Lemma e2_cv x : 0 < x < 1 -> Un_cv (fun K => rsum K (fun j => 2 / INR (order true j) * x ^ order true j)) (logy (x ^ 2)).
Proof.
  intros Hx. assert (Hy : 0 <= x ^ 2 < 1) by nra. eapply cv_ext; [|apply log_cv; exact Hy].
  intros K. apply rsum_ext. intros j Hj. unfold order. rewrite INR_even. pose proof (Sj_pos j) as P.
  replace (x ^ (2 * j + 2)) with ((x ^ 2) ^ S j) by (rewrite <- pow_mult; f_equal; lia). field. lra.
Qed.
Definition logx (x : R) := ln (1 + x) - ln (1 - x).
Lemma o2_cv x : 0 < x < 1 -> Un_cv (fun K => rsum K (fun j => 2 / INR (order false j) * x ^ order false j)) (logx x).
Proof.
  intros Hx. eapply cv_ext; [|apply artanh_cv; lra]. intros K. apply rsum_ext. intros j Hj. unfold order, Rdiv. ring.
Qed.
Lemma e3_cv x : 0 < x < 1 -> Un_cv (fun K => rsum K (fun j => 4 / (INR (order true j) * (INR (order true j) + 2)) * x ^ order true j)) (1 - (1 - x ^ 2) / x ^ 2 * logy (x ^ 2)).
Proof.
  intros Hx. assert (Hy : 0 < x ^ 2 < 1) by nra. set (y := x ^ 2) in *.
  apply (cv_ext (fun K => rsum K (fun j => y ^ S j / INR (S j)) + - / y * (rsum (S K) (fun j => y ^ S j / INR (S j)) + - y))).
  - intros K. rewrite rsum_shift. cbn [pow INR]. rewrite Rmult_1_r. unfold Rdiv at 2. rewrite Rinv_1, Rmult_1_r.
    match goal with |- _ + - / y * (y + ?s + - y) = _ => replace (- / y * (y + s + - y)) with (- / y * s) by ring end.
    rewrite <- rsum_scal_l, <- rsum_plus. apply rsum_ext. intros j Hj. unfold order. rewrite INR_even. pose proof (Sj_pos j) as P.
    replace (x ^ (2 * j + 2)) with (y * y ^ j) by (unfold y; rewrite <- pow_mult, <- pow_add; f_equal; lia).
    change (match j with 0%nat => 1 | S _ => INR j + 1 end) with (INR (S j)). change (INR (S (S j))) with (INR (S j) + 1). set (q := INR (S j)) in *. clearbody q.
    field. repeat split; lra.
  - replace (1 - (1 - y) / y * logy y) with (logy y + - / y * (logy y + - y)) by (field; lra).
    apply CV_plus; [apply log_cv; lra|]. apply cv_scal. apply (CV_plus _ (fun _ => - y)); [apply (cv_S (fun K => rsum K (fun j => y ^ S j / INR (S j)))), log_cv; lra|apply cv_const].
Qed.
Lemma o3_cv x : 0 < x < 1 -> Un_cv (fun K => rsum K (fun j => 4 / (INR (order false j) * (INR (order false j) + 2)) * x ^ order false j)) (2 / x - (1 - x ^ 2) / x ^ 2 * logx x).
Proof.
  intros Hx.
  apply (cv_ext (fun K => rsum K (fun j => 2 * x ^ (2 * j + 1) / INR (2 * j + 1)) + - / x ^ 2 * (rsum (S K) (fun j => 2 * x ^ (2 * j + 1) / INR (2 * j + 1)) + - (2 * x)))).
  - intros K. rewrite rsum_shift. change (2 * 0 + 1)%nat with 1%nat. change (INR 1) with 1. rewrite pow_1. 
    match goal with |- _ + - / x ^ 2 * (2 * x / 1 + ?s + - (2 * x)) = _ => replace (- / x ^ 2 * (2 * x / 1 + s + - (2 * x))) with (- / x ^ 2 * s) by (field; lra) end.
    rewrite <- rsum_scal_l, <- rsum_plus. apply rsum_ext. intros j Hj. unfold order. replace (2 * S j + 1)%nat with (2 * j + 1 + 2)%nat by lia. rewrite (pow_add x (2 * j + 1) 2), (plus_INR (2 * j + 1) 2).
    assert (P : 0 < INR (2 * j + 1)) by (apply lt_0_INR; lia). change (INR 2) with 2. set (q := INR (2 * j + 1)) in *. clearbody q. set (z := x ^ (2 * j + 1)). clearbody z.
    field. repeat split; lra.
  - replace (2 / x - (1 - x ^ 2) / x ^ 2 * logx x) with (logx x + - / x ^ 2 * (logx x + - (2 * x))) by (field; lra).
    apply CV_plus; [apply artanh_cv; lra|]. apply cv_scal. apply (CV_plus _ (fun _ => - (2 * x))); [apply (cv_S (fun K => rsum K (fun j => 2 * x ^ (2 * j + 1) / INR (2 * j + 1)))), artanh_cv; lra|apply cv_const].
Qed.
(** With m1 = m - 2, and -2 instead of 0. *)
Lemma e4_cv x : 0 < x < 1 -> Un_cv (fun K => rsum K (fun j => 4 / (INR (order true j) * m1 (order true j)) * x ^ order true j)) (- (1 - x ^ 2) * logy (x ^ 2)).
Proof.
  intros Hx. assert (Hy : 0 < x ^ 2 < 1) by nra. apply cv_next.
  apply (cv_ext (fun K => - x ^ 2 + x ^ 2 * rsum K (fun j => 4 / (INR (order true j) * (INR (order true j) + 2)) * x ^ order true j))).
  - intros K. rewrite rsum_shift. f_equal.
    + unfold order, m1. change (2 * 0 + 2)%nat with 2%nat. cbn [Nat.eqb]. change (INR 2) with 2. field.
    + rewrite <- rsum_scal_l. apply rsum_ext. intros j Hj. unfold order, m1. rewrite (proj2 (Nat.eqb_neq (2 * S j + 2) 2)) by lia.
      replace (2 * S j + 2)%nat with (2 * j + 2 + 2)%nat by lia. rewrite (pow_add x (2 * j + 2) 2), (plus_INR (2 * j + 2) 2). change (INR 2) with 2.
      assert (P : 0 < INR (2 * j + 2)) by (apply lt_0_INR; lia). set (q := INR (2 * j + 2)) in *. clearbody q. set (z := x ^ (2 * j + 2)). clearbody z. field. lra.
  - replace (- (1 - x ^ 2) * logy (x ^ 2)) with (- x ^ 2 + x ^ 2 * (1 - (1 - x ^ 2) / x ^ 2 * logy (x ^ 2))) by (field; lra).
    apply (CV_plus (fun _ => _)); [apply cv_const|]. apply cv_scal, e3_cv. exact Hx.
Qed.
Lemma o4_cv x : 0 < x < 1 -> Un_cv (fun K => rsum K (fun j => 4 / (INR (order false j) * m1 (order false j)) * x ^ order false j)) (- (2) * x - (1 - x ^ 2) * logx x).
Proof.
  intros Hx. apply cv_next.
  apply (cv_ext (fun K => - (4) * x + x ^ 2 * rsum K (fun j => 4 / (INR (order false j) * (INR (order false j) + 2)) * x ^ order false j))).
  - intros K. rewrite rsum_shift. f_equal.
    + unfold order, m1. change (2 * 0 + 1)%nat with 1%nat. cbn [Nat.eqb]. change (INR 1) with 1. field.
    + rewrite <- rsum_scal_l. apply rsum_ext. intros j Hj. unfold order, m1. rewrite (proj2 (Nat.eqb_neq (2 * S j + 1) 2)) by lia.
      replace (2 * S j + 1)%nat with (2 * j + 1 + 2)%nat by lia. rewrite (pow_add x (2 * j + 1) 2), (plus_INR (2 * j + 1) 2). change (INR 2) with 2.
      assert (P : 0 < INR (2 * j + 1)) by (apply lt_0_INR; lia). set (q := INR (2 * j + 1)) in *. clearbody q. set (z := x ^ (2 * j + 1)). clearbody z. field. lra.
  - replace (- (2) * x - (1 - x ^ 2) * logx x) with (- (4) * x + x ^ 2 * (2 / x - (1 - x ^ 2) / x ^ 2 * logx x)) by (field; lra).
    apply (CV_plus (fun _ => _)); [apply cv_const|]. apply cv_scal, o3_cv. exact Hx.
Qed.
Lemma asy_cv ev g1 g2 g3 (w : nat -> R) x G1 G2 G3 :
  Un_cv (fun K => rsum K (fun j => x ^ order ev j)) G1 -> Un_cv (fun K => rsum K (fun j => 2 / INR (order ev j) * x ^ order ev j)) G2 ->
  Un_cv (fun K => rsum K (fun j => 4 / (INR (order ev j) * w (order ev j)) * x ^ order ev j)) G3 ->
  sums_to ev (fun m => g1 + 2 * g2 / INR m - 4 * g3 / (INR m * w m)) x (g1 * G1 + (g2 * G2 + - g3 * G3)).
Proof.
  intros H1 H2 H3. unfold sums_to.
  apply (cv_ext (fun K => g1 * rsum K (fun j => x ^ order ev j) + (g2 * rsum K (fun j => 2 / INR (order ev j) * x ^ order ev j) + - g3 * rsum K (fun j => 4 / (INR (order ev j) * w (order ev j)) * x ^ order ev j)))).
  - intros K. rewrite <- !rsum_scal_l, <- !rsum_plus. apply rsum_ext. intros j Hj. unfold Rdiv. ring.
  - repeat apply CV_plus; apply cv_scal; assumption.
Qed.

(** ** Up to order xi *)
Definition small (h : R -> R) : Prop := exists K, forall xi, 0 < xi <= 1 -> Rabs (h xi) <= K * xi.
Lemma small_ext h k : (forall xi, 0 < xi <= 1 -> h xi = k xi) -> small h -> small k.
Proof. intros E [K HK]. exists K. intros xi Hx. rewrite <- E by exact Hx. apply HK, Hx. Qed.
Lemma small_plus h k : small h -> small k -> small (fun xi => h xi + k xi).
Proof. intros [K HK] [L HL]. exists (K + L). intros xi Hx. eapply Rle_trans; [apply Rabs_triang|]. specialize (HK xi Hx). specialize (HL xi Hx). lra. Qed.
Lemma small_scal c h : small h -> small (fun xi => c * h xi).
Proof. intros [K HK]. exists (Rabs c * K). intros xi Hx. rewrite Rabs_mult, Rmult_assoc. apply Rmult_le_compat_l; [apply Rabs_pos|apply HK, Hx]. Qed.
Lemma small_zero : small (fun _ => 0).
Proof. exists 0. intros xi Hx. rewrite Rabs_R0. lra. Qed.
Lemma small_rsum K (h : nat -> R -> R) : (forall j, (j < K)%nat -> small (h j)) -> small (fun xi => rsum K (fun j => h j xi)).
Proof. induction K as [|K IH]; intros Hh; cbn [rsum]; [apply small_zero|]. apply small_plus; [apply IH; intros j Hj; apply Hh; lia|apply Hh; lia]. Qed.
Lemma small_pow m : small (fun xi => (2 / (2 + xi)) ^ m - 1).
Proof.
  exists (INR m). intros xi Hx. assert (X0 : 0 < 2 / (2 + xi)) by (apply Rdiv_lt_0_compat; lra).
  assert (X1 : 2 / (2 + xi) = 1 - xi / (2 + xi)) by (field; lra). assert (X2 : 0 < xi / (2 + xi) <= xi).
  { split; [apply Rdiv_lt_0_compat; lra|]. apply (Rmult_le_reg_r (2 + xi)); [lra|]. unfold Rdiv. rewrite Rmult_assoc, Rinv_l by lra. nra. }
  induction m as [|m IH]; [cbn [pow INR]; rewrite Rminus_diag_eq by reflexivity; rewrite Rabs_R0; lra|].
  rewrite S_INR. cbn [pow]. set (z := 2 / (2 + xi)) in *.
  replace (z * z ^ m - 1) with (z * (z ^ m - 1) + (z - 1)) by ring. eapply Rle_trans; [apply Rabs_triang|]. rewrite Rabs_mult, (Rabs_right z) by lra.
  assert (Rabs (z - 1) <= xi) by (rewrite X1; rewrite Rabs_left by lra; lra).
  assert (z * Rabs (z ^ m - 1) <= 1 * Rabs (z ^ m - 1)) by (apply Rmult_le_compat_r; [apply Rabs_pos|lra]). lra.
Qed.
Lemma ln_up t : 0 <= t -> 0 <= ln (1 + t) <= t.
Proof.
  intros Ht. destruct (Rle_lt_or_eq_dec 0 t Ht) as [Lt|<-]; [|rewrite Rplus_0_r, ln_1; lra]. split.
  - rewrite <- ln_1. left. apply ln_increasing; lra.
  - left. rewrite <- (ln_exp t) at 2. apply ln_increasing; [lra|]. apply exp_ineq1. lra.
Qed.
Lemma xi_log xi : 0 < xi <= 1 -> 0 <= xi * ln (/ xi) <= 1.
Proof.
  intros Hx. assert (Hi : 1 <= / xi) by (rewrite <- Rinv_1; apply Rinv_le_contravar; lra).
  destruct (ln_up (/ xi - 1) ltac:(lra)) as [A B]. replace (1 + (/ xi - 1)) with (/ xi) in A, B by ring. split; [apply Rmult_le_pos; lra|].
  apply Rle_trans with (xi * (/ xi - 1)); [apply Rmult_le_compat_l; lra|]. rewrite Rmult_minus_distr_l, Rinv_r by lra. lra.
Qed.
Lemma small_e1 : small (fun xi => let x := 2 / (2 + xi) in x ^ 2 / (1 - x ^ 2) - (/ xi - / 4)).
Proof.
  exists 1. intros xi Hx. cbv zeta. replace ((2 / (2 + xi)) ^ 2 / (1 - (2 / (2 + xi)) ^ 2) - (/ xi - / 4)) with (xi / (4 * (4 + xi))) by (field; repeat split; nra).
  rewrite Rabs_right by (apply Rle_ge; left; apply Rdiv_lt_0_compat; lra). apply (Rmult_le_reg_r (4 * (4 + xi))); [lra|]. unfold Rdiv. rewrite Rmult_assoc, Rinv_l by lra. nra.
Qed.
Lemma small_o1 : small (fun xi => let x := 2 / (2 + xi) in x / (1 - x ^ 2) - (/ xi + / 4)).
Proof.
  exists 1. intros xi Hx. cbv zeta. replace (2 / (2 + xi) / (1 - (2 / (2 + xi)) ^ 2) - (/ xi + / 4)) with (- (xi / (4 * (4 + xi)))) by (field; repeat split; nra).
  rewrite Rabs_Ropp. rewrite Rabs_right by (apply Rle_ge; left; apply Rdiv_lt_0_compat; lra). apply (Rmult_le_reg_r (4 * (4 + xi))); [lra|]. unfold Rdiv. rewrite Rmult_assoc, Rinv_l by lra. nra.
Qed.
Lemma logy_near xi : 0 < xi <= 1 -> 0 <= logy ((2 / (2 + xi)) ^ 2) - ln (/ xi) <= xi.
Proof.
  intros Hx. unfold logy. set (t := (xi ^ 2 + 3 * xi) / (4 + xi)). assert (T : 0 <= t <= xi).
  { unfold t. split; [apply Rmult_le_pos; [nra|left; apply Rinv_0_lt_compat; lra]|]. apply (Rmult_le_reg_r (4 + xi)); [lra|]. unfold Rdiv. rewrite Rmult_assoc, Rinv_l by lra. nra. }
  assert (E : 1 - (2 / (2 + xi)) ^ 2 = / (/ xi * (1 + t))) by (unfold t; field; repeat split; nra).
  assert (Ix : 0 < / xi) by (apply Rinv_0_lt_compat; lra).
  rewrite E, ln_Rinv by (apply Rmult_lt_0_compat; lra). rewrite Ropp_involutive, ln_mult by lra. destruct (ln_up t ltac:(lra)) as [A B]. lra.
Qed.
Lemma logx_near xi : 0 < xi <= 1 -> 0 <= logx (2 / (2 + xi)) - (ln (/ xi) + 2 * ln 2) <= xi.
Proof.
  intros Hx. unfold logx. assert (Ix : 0 < / xi) by (apply Rinv_0_lt_compat; lra).
  assert (E1 : 1 + 2 / (2 + xi) = 4 * (1 + xi / 4) / (2 + xi)) by (field; lra). assert (E2 : 1 - 2 / (2 + xi) = xi / (2 + xi)) by (field; lra).
  assert (LD : forall a b, 0 < a -> 0 < b -> ln (a / b) = ln a - ln b).
  { intros a b Ha Hb. unfold Rdiv. rewrite ln_mult, ln_Rinv by (try apply Rinv_0_lt_compat; assumption). ring. }
  rewrite E1, E2. rewrite !LD by lra. rewrite (ln_mult 4) by lra. replace (ln 4) with (ln 2 + ln 2) by (rewrite <- ln_mult by lra; f_equal; ring).
  rewrite ln_Rinv by lra. destruct (ln_up (xi / 4) ltac:(lra)) as [A B]. lra.
Qed.
Lemma small_e2 : small (fun xi => logy ((2 / (2 + xi)) ^ 2) - ln (/ xi)).
Proof. exists 1. intros xi Hx. pose proof (logy_near xi Hx) as P. rewrite Rabs_right; lra. Qed.
Lemma small_o2 : small (fun xi => logx (2 / (2 + xi)) - (ln (/ xi) + 2 * ln 2)).
Proof. exists 1. intros xi Hx. pose proof (logx_near xi Hx) as P. rewrite Rabs_right; lra. Qed.
(** xi times anything that differs from ln (1/xi) by at most a constant *)
Lemma small_log (L q : R -> R) c B : (forall xi, 0 < xi <= 1 -> Rabs (L xi - ln (/ xi)) <= c) -> (forall xi, 0 < xi <= 1 -> Rabs (q xi) <= B) ->
  small (fun xi => (xi + xi ^ 2 * q xi) * L xi - xi * ln (/ xi)).
Proof.
  intros HL Hq. exists (c + B * (c + 1)). intros xi Hx. pose proof (xi_log xi Hx) as P. specialize (HL xi Hx). specialize (Hq xi Hx).
  replace ((xi + xi ^ 2 * q xi) * L xi - xi * ln (/ xi)) with (xi * ((L xi - ln (/ xi)) + q xi * (xi * (L xi - ln (/ xi)) + xi * ln (/ xi)))) by ring.
  rewrite Rabs_mult, (Rabs_right xi) by lra. rewrite (Rmult_comm _ xi). apply Rmult_le_compat_l; [lra|].
  eapply Rle_trans; [apply Rabs_triang|]. rewrite Rabs_mult. apply Rplus_le_compat; [exact HL|].
  apply Rmult_le_compat; [apply Rabs_pos|apply Rabs_pos|exact Hq|]. eapply Rle_trans; [apply Rabs_triang|]. rewrite Rabs_mult, (Rabs_right xi), (Rabs_right (xi * ln (/ xi))) by lra.
  apply Rplus_le_compat; [|lra]. pose proof (Rabs_pos (L xi - ln (/ xi))). apply Rle_trans with (1 * Rabs (L xi - ln (/ xi))); [apply Rmult_le_compat_r; lra|lra].
Qed.
Lemma logy_c xi : 0 < xi <= 1 -> Rabs (logy ((2 / (2 + xi)) ^ 2) - ln (/ xi)) <= 1.
Proof. intros Hx. pose proof (logy_near xi Hx). rewrite Rabs_right; lra. Qed.
Lemma logx_c xi : 0 < xi <= 1 -> Rabs (logx (2 / (2 + xi)) - ln (/ xi)) <= 2 * ln 2 + 1.
Proof. intros Hx. pose proof (logx_near xi Hx). assert (0 < ln 2) by (rewrite <- ln_1; apply ln_increasing; lra). rewrite Rabs_right; lra. Qed.
Lemma plus_frac xi : 0 < xi -> (1 - (2 / (2 + xi)) ^ 2) / (2 / (2 + xi)) ^ 2 = xi + xi ^ 2 * / 4.
Proof. intros Hx. field. lra. Qed.
Lemma minus_frac xi : 0 < xi -> 1 - (2 / (2 + xi)) ^ 2 = xi + xi ^ 2 * (- (xi + 3) / (2 + xi) ^ 2).
Proof. intros Hx. field. lra. Qed.
Lemma quarter xi : 0 < xi <= 1 -> Rabs (/ 4) <= 1. Proof. intros _. rewrite Rabs_right; lra. Qed.
Lemma minus_c xi : 0 < xi <= 1 -> Rabs (- (xi + 3) / (2 + xi) ^ 2) <= 1.
Proof.
  intros Hx. assert (P : 0 < (2 + xi) ^ 2) by nra. unfold Rdiv. rewrite Rabs_mult, Rabs_Ropp, (Rabs_right (xi + 3)), (Rabs_right (/ _)) by (try (apply Rle_ge; left; apply Rinv_0_lt_compat; exact P); lra).
  apply (Rmult_le_reg_r ((2 + xi) ^ 2)); [exact P|]. rewrite Rmult_assoc, Rinv_l by lra. nra.
Qed.
Lemma small_e3 : small (fun xi => let x := 2 / (2 + xi) in (1 - (1 - x ^ 2) / x ^ 2 * logy (x ^ 2)) - (1 - xi * ln (/ xi))).
Proof.
  eapply small_ext; [|apply (small_scal (- (1))), (small_log (fun xi => logy ((2 / (2 + xi)) ^ 2)) (fun _ => / 4) 1 1 logy_c quarter)].
  intros xi Hx. cbv beta zeta. rewrite plus_frac by lra. ring.
Qed.
Lemma small_o3 : small (fun xi => let x := 2 / (2 + xi) in (2 / x - (1 - x ^ 2) / x ^ 2 * logx x) - (2 - xi * ln (/ xi))).
Proof.
  eapply small_ext; [|eapply (small_plus _ (fun xi => xi)); [apply (small_scal (- (1))), (small_log (fun xi => logx (2 / (2 + xi))) (fun _ => / 4) _ 1 logx_c quarter)|]].
  - intros xi Hx. cbv beta zeta. rewrite plus_frac by lra. set (L := logx _). clearbody L. field. lra.
  - exists 1. intros xi Hx. rewrite Rabs_right; lra.
Qed.
Lemma small_e4 : small (fun xi => let x := 2 / (2 + xi) in - (1 - x ^ 2) * logy (x ^ 2) - (- (xi * ln (/ xi)))).
Proof.
  eapply small_ext; [|apply (small_scal (- (1))), (small_log (fun xi => logy ((2 / (2 + xi)) ^ 2)) (fun xi => - (xi + 3) / (2 + xi) ^ 2) 1 1 logy_c minus_c)].
  intros xi Hx. cbv beta zeta. rewrite minus_frac by lra. ring.
Qed.
Lemma small_o4 : small (fun xi => let x := 2 / (2 + xi) in (- (2) * x - (1 - x ^ 2) * logx x) - (- (2) - xi * ln (/ xi))).
Proof.
  eapply small_ext; [|apply small_plus; [apply (small_scal (- (1))), (small_log (fun xi => logx (2 / (2 + xi))) (fun xi => - (xi + 3) / (2 + xi) ^ 2) _ 1 logx_c minus_c)|apply (small_scal (- (2))), (small_pow 1)]].
  intros xi Hx. cbv beta zeta. rewrite minus_frac by lra. rewrite pow_1. ring.
Qed.

(** ** The expansion of a continued series *)
Lemma x_range xi : 0 < xi -> 0 < 2 / (2 + xi) < 1.
Proof. intros Hx. split; [apply Rdiv_lt_0_compat; lra|]. apply (Rmult_lt_reg_r (2 + xi)); [lra|]. unfold Rdiv. rewrite Rmult_assoc, Rinv_l by lra. lra. Qed.
Section Expansion.
Variables (ev : bool) (c c' w : nat -> R) (g1 g2 g3 : R) (J : nat).
Variables (k1 k2 k3 : R) (S1 S2 S3 : R -> R).
Hypothesis early : forall j, (j < J)%nat -> c' (order ev j) = c (order ev j).
Hypothesis late : forall j, (J <= j)%nat -> c' (order ev j) = g1 + 2 * g2 / INR (order ev j) - 4 * g3 / (INR (order ev j) * w (order ev j)).
Hypothesis cv1 : forall x, 0 < x < 1 -> Un_cv (fun K => rsum K (fun j => x ^ order ev j)) (S1 x).
Hypothesis cv2 : forall x, 0 < x < 1 -> Un_cv (fun K => rsum K (fun j => 2 / INR (order ev j) * x ^ order ev j)) (S2 x).
Hypothesis cv3 : forall x, 0 < x < 1 -> Un_cv (fun K => rsum K (fun j => 4 / (INR (order ev j) * w (order ev j)) * x ^ order ev j)) (S3 x).
Hypothesis s1 : small (fun xi => S1 (2 / (2 + xi)) - (/ xi + k1)).
Hypothesis s2 : small (fun xi => S2 (2 / (2 + xi)) - (ln (/ xi) + k2)).
Hypothesis s3 : small (fun xi => S3 (2 / (2 + xi)) - (k3 - xi * ln (/ xi))).
Let D m := c m - (g1 + 2 * g2 / INR m - 4 * g3 / (INR m * w m)).
Lemma continued_expands v0 sign X :
  (forall xi, 0 < xi -> X xi = v0 + sign * (g1 * / xi + g2 * ln (/ xi) + (g1 * k1 + g2 * k2 - g3 * k3 + rsum J (fun j => D (order ev j))) + g3 * xi * ln (/ xi))) ->
  expands ev c' v0 sign X.
Proof.
  intros HX.
  assert (V : forall xi, 0 < xi -> sums_to ev c' (2 / (2 + xi))
     (rsum J (fun j => D (order ev j) * (2 / (2 + xi)) ^ order ev j) + (g1 * S1 (2 / (2 + xi)) + (g2 * S2 (2 / (2 + xi)) + - g3 * S3 (2 / (2 + xi)))))).
  { intros xi Hx. pose proof (x_range xi Hx) as Rx. apply (sums_split ev c c' (fun m => g1 + 2 * g2 / INR m - 4 * g3 / (INR m * w m)) J); [exact early|exact late|]. apply asy_cv; [apply cv1|apply cv2|apply cv3]; exact Rx. }
  split; [intros xi Hx; eexists; apply V; exact Hx|].
  assert (SM : small (fun xi => (rsum J (fun j => D (order ev j) * (2 / (2 + xi)) ^ order ev j) + (g1 * S1 (2 / (2 + xi)) + (g2 * S2 (2 / (2 + xi)) + - g3 * S3 (2 / (2 + xi)))))
     - (g1 * / xi + g2 * ln (/ xi) + (g1 * k1 + g2 * k2 - g3 * k3 + rsum J (fun j => D (order ev j))) + g3 * xi * ln (/ xi)))).
  { eapply small_ext; [|apply small_plus; [apply (small_rsum J (fun j xi => D (order ev j) * ((2 / (2 + xi)) ^ order ev j - 1))); intros j Hj; apply small_scal, small_pow|
      apply small_plus; [apply (small_scal g1), s1|apply small_plus; [apply (small_scal g2), s2|apply (small_scal (- g3)), s3]]]].
    intros xi Hx. cbv beta.
    rewrite (rsum_ext J (fun j => D (order ev j) * ((2 / (2 + xi)) ^ order ev j - 1)) (fun j => D (order ev j) * (2 / (2 + xi)) ^ order ev j - D (order ev j))) by (intros; ring).
    rewrite rsum_minus. ring. }
  destruct SM as [K HK]. exists (Rabs sign * K). intros xi v Hx Hv. rewrite (sums_unique _ _ _ _ _ Hv (V xi (proj1 Hx))). rewrite HX by lra.
  match goal with |- Rabs (v0 + sign * ?a - (v0 + sign * ?b)) <= _ => replace (v0 + sign * a - (v0 + sign * b)) with (- (sign * (b - a))) by ring end.
  rewrite Rabs_Ropp, Rabs_mult, (Rmult_assoc (Rabs sign) K xi). apply Rmult_le_compat_l; [apply Rabs_pos|]. apply HK, Hx.
Qed.
End Expansion.
