(** The series of one translated harmonic along the axis. *)
From Coq Require Import Reals ZArith Arith Lia Lra Bool.
From Verif Require Import Base Model_Mob Model_Close Model_Reflect Spec_Reflect Spec_Translate Proof_Reflect3 Proof_Translate Proof_Translate2.
Local Open Scope R_scope.

Lemma bin_down p k : INR p * bin (S p) k = (INR p + INR k) * bin p k.
Proof.
  destruct p as [|p]; [|rewrite S_INR; rewrite bin_up; ring].
  destruct k as [|k]; [rewrite !bin_0; cbn [INR]; ring|]. cbn [bin INR]. ring.
Qed.

Section One.
Context (r xi : R) (Hr : r <> 0) (Hxi : Rabs xi < Rabs r) (n : nat) (m : Z) (Hn : (1 <= n)%nat) (Hm : (Z.abs_nat m <= n)%nat).
Notation M := (Z.abs_nat m).
Notation t := (xi / r).
Notation x := (r + xi).

Lemma t_small : Rabs t < 1.
Proof.
  unfold Rdiv. rewrite Rabs_mult, Rabs_inv. pose proof (Rabs_pos_lt r Hr) as P. apply (Rmult_lt_reg_r (Rabs r)); [exact P|].
  rewrite Rmult_assoc, Rinv_l, Rmult_1_r, Rmult_1_l by lra. exact Hxi.
Qed.
Lemma t_pos : 0 < 1 + t.
Proof. pose proof t_small as T. unfold Rabs in T. destruct (Rcase_abs t); lra. Qed.
Lemma x_val : x = r * (1 + t).
Proof. field. exact Hr. Qed.
Lemma x_nz : x <> 0.
Proof. rewrite x_val. pose proof t_pos. apply Rmult_integral_contrapositive. split; [exact Hr|lra]. Qed.
Lemma phi_move : phi H n m x = phi H n m r * / (1 + t) ^ S (n + M).
Proof.
  pose proof t_pos as T. unfold phi, psi. rewrite x_val, Rabs_mult, (Rabs_pos_eq (1 + t)) by lra. rewrite !Rpow_mult_distr.
  replace ((1 + t) ^ (2 * n + 1)) with ((1 + t) ^ (n - M) * (1 + t) ^ S (n + M)) by (rewrite <- pow_add; f_equal; lia).
  assert ((1 + t) ^ (n - M) <> 0) by (apply pow_nonzero; lra). assert ((1 + t) ^ S (n + M) <> 0) by (apply pow_nonzero; lra).
  assert (Rabs r ^ (2 * n + 1) <> 0) by (apply pow_nonzero, Rabs_no_R0; exact Hr).
  set (P := (1 + t) ^ (n - M)) in *. set (Q := (1 + t) ^ S (n + M)) in *. field. repeat split; assumption.
Qed.
Lemma dphi_move : r * dphi H n m x = - (INR (n + M) + 1) * phi H n m r * / (1 + t) ^ S (S (n + M)).
Proof.
  unfold dphi. rewrite phi_move, x_val, plus_INR. pose proof t_pos as T. cbn [pow]. assert ((1 + t) ^ (n + M) <> 0) by (apply pow_nonzero; lra).
  set (P := (1 + t) ^ (n + M)) in *. set (u := 1 + t) in *. field. repeat split; lra || assumption.
Qed.
Lemma dphi_x : x * dphi H n m x = - (INR (n + M) + 1) * phi H n m x.
Proof. unfold dphi. rewrite plus_INR. field. exact x_nz. Qed.

(** ** Pressure *)
Lemma p_series C :
  infinite_sum (fun k => in_p (translate_weight r (M + k) n m * g (M + k) n m * C) (psi H (M + k) m xi)) (out_p C (phi H n m x)).
Proof.
  eapply is_ext; [| |apply (is_scal (C * phi H n m r)), (bin_series (S (n + M)) t t_small)].
  - intros k. cbn beta. unfold in_p. replace (translate_weight r (M + k) n m * g (M + k) n m * C * psi H (M + k) m xi) with (C * (translate_weight r (M + k) n m * g (M + k) n m * psi H (M + k) m xi)) by ring.
    rewrite weight_val by assumption. ring.
  - unfold out_p. rewrite phi_move. ring.
Qed.

(** ** Rotation *)
Lemma xw_series B C' :
  (m = 0%Z -> C' = 0) ->
  infinite_sum (fun k => in_xw (M + k) (translate_weight r (M + k) n m * g (M + k) n m * (- (INR n / (1 + INR (M + k))) * B - r * C' / ((1 + INR (M + k)) * INR n * INR (M + k)))) (psi H (M + k) m xi))
    (out_xw n B (phi H n m x) - r * out_wx n B (dphi H n m x) (C' * phi H n m x)).
Proof.
  intros HC. assert (Nn : 0 < INR n) by (apply lt_0_INR; lia). pose proof (pos_INR M) as PM.
  set (a := fun k => bin (S (n + M)) k * t ^ k). set (b := fun k => bin (S (S (n + M))) k * t ^ k).
  eapply is_ext with (f := fun k => phi H n m r * (INR n * (INR n + 1) * B - r * C' / INR n) * a k + - (phi H n m r * INR n * B * (INR (n + M) + 1)) * b k).
  3:{ apply is_plus; apply is_scal; apply bin_series, t_small. }
  - intros k. cbn beta. unfold in_xw.
    match goal with |- _ = ?e * (?w * ?gg * ?c) * ?ps => replace (e * (w * gg * c) * ps) with (e * c * (w * gg * ps)) by ring end.
    rewrite weight_val by assumption. fold (a k).
    assert (Eb : (INR (n + M) + 1) * b k = (INR (n + M) + 1 + INR k) * a k).
    { unfold a, b. rewrite <- !Rmult_assoc. f_equal. apply bin_up. }
    replace (- (phi H n m r * INR n * B * (INR (n + M) + 1)) * b k) with (- (phi H n m r * INR n * B) * ((INR (n + M) + 1) * b k)) by ring. rewrite Eb.
    rewrite !plus_INR. destruct (Nat.eq_dec (M + k) 0) as [Z|NZ].
    + assert (k = 0 /\ M = 0)%nat as [-> M0] by lia. rewrite HC by lia. rewrite M0. cbn [INR]. unfold Rdiv. rewrite !Rmult_0_r, !Rmult_0_l, ?Rplus_0_r, ?Rminus_0_r. ring.
    + assert (0 < INR M + INR k) by (rewrite <- plus_INR; apply lt_0_INR; lia). field. lra.
  - unfold out_xw, out_wx. transitivity (INR n * (INR n + 1) * B * phi H n m x + INR n * B * (r * dphi H n m x) - r * (/ INR n * (C' * phi H n m x))); [|ring]. rewrite dphi_move, phi_move. unfold Rdiv. ring.
Qed.

(** ** Velocity *)
Lemma g_below nu : (1 <= nu)%nat -> g (nu - 1) n m = g nu n m * (INR nu + INR M) / (INR n + INR nu).
Proof.
  intros Hnu. rewrite !g_val by assumption. destruct nu as [|nu]; [lia|]. replace (S nu - 1)%nat with nu by lia.
  replace (n + S nu)%nat with (S (n + nu)) by lia. replace (S nu + M)%nat with (S (nu + M)) by lia. rewrite !fact_S, !plus_INR, S_INR.
  pose proof (fact_nz (n - M)) as F1. pose proof (fact_nz (nu + M)) as F2. pose proof (pos_INR n). pose proof (pos_INR nu). pose proof (pos_INR M). field. repeat split; try assumption; lra.
Qed.
Lemma xu_series A B' C :
  (m = 0%Z -> B' = 0) ->
  infinite_sum (fun k => in_xu (M + k)
      (translate_weight r (M + k) n m * (g (M + k) n m * A - g (M + k) n m * r * B' / INR (M + k) + translate_C r (M + k) n m C))
      (translate_weight r (M + k) n m * g (M + k) n m * C) (psi H (M + k) m xi) (xi ^ 2))
    (out_xu n A C (phi H n m x) (x ^ 2) - r * out_ux n A C (phi H n m x) (dphi H n m x) (B' * phi H n m x) (x ^ 2) x).
Proof.
  intros HB. assert (N1 : 1 <= INR n) by (change 1 with (INR 1); apply le_INR; exact Hn). pose proof (pos_INR M) as PM.
  set (q := (n + M)%nat). set (p := (n - 1 + M)%nat). assert (Hq : q = S p) by (unfold q, p; lia).
  set (a := fun k => bin (S q) k * t ^ k). set (b := fun k => bin (S (S q)) k * t ^ k). set (c := fun k => bin q k * t ^ k). set (d := fun k => bin p k * t ^ k).
  set (ph := phi H n m r).
  set (T := fun k => ph * (- (INR n + 1) * A - r * B') * a k + (ph * A * (INR q + 1) * b k + (ph * C * r ^ 2 * ((INR n + 1) / (2 * (2 * INR n - 1))) * d k
     + - (ph * C * r ^ 2 * ((INR n - 2) * (INR q + 1) / (2 * INR n * (2 * INR n - 1)) + (INR n + 1) / (INR n * (2 * INR n - 1)))) * c k))).
  set (D := fun k => INR (M + k) * (translate_weight r (M + k) n m * (g (M + k) n m * A - g (M + k) n m * r * B' / INR (M + k) + translate_C r (M + k) n m C)) * psi H (M + k) m xi).
  set (e := fun k => translate_weight r (M + k) n m * g (M + k) n m * C * (INR (M + k) / (2 * (2 * INR (M + k) + 3))) * xi ^ 2 * psi H (M + k) m xi).
  assert (Eb : forall k, (INR q + 1) * b k = (INR q + 1 + INR k) * a k) by (intros k; unfold a, b; rewrite <- !Rmult_assoc; f_equal; apply bin_up).
  assert (Ec : forall k, INR q * a k = (INR q + INR k) * c k) by (intros k; unfold a, c; rewrite <- !Rmult_assoc; f_equal; apply bin_down).
  assert (Ed : forall k, INR p * c k = (INR p + INR k) * d k) by (intros k; unfold c, d; rewrite <- !Rmult_assoc; f_equal; rewrite Hq; apply bin_down).
  assert (Ip : INR q = INR p + 1) by (rewrite Hq, S_INR; reflexivity). assert (Iq : INR q = INR n + INR M) by (unfold q; apply plus_INR).
  assert (W : forall k, translate_weight r (M + k) n m * g (M + k) n m * psi H (M + k) m xi = ph * a k) by (intros k; apply weight_val; assumption).
  assert (Ee : forall k, e k = C * ph * a k * (INR (M + k) / (2 * (2 * INR (M + k) + 3))) * xi ^ 2).
  { intros k. unfold e. replace (translate_weight r (M + k) n m * g (M + k) n m * C * (INR (M + k) / (2 * (2 * INR (M + k) + 3))) * xi ^ 2 * psi H (M + k) m xi)
      with (C * (translate_weight r (M + k) n m * g (M + k) n m * psi H (M + k) m xi) * (INR (M + k) / (2 * (2 * INR (M + k) + 3))) * xi ^ 2) by ring. rewrite W. ring. }
  assert (DT : forall k, T k = D k + C * ph * a k * r ^ 2 * ((INR (M + k) - 2) / (2 * (2 * INR (M + k) - 1))) * (INR k * (INR k - 1) / ((INR n + INR (M + k)) * (INR n + INR (M + k) - 1)))).
  { intros k. destruct (Nat.eq_dec (M + k) 0) as [Z|NZ].
    - assert (k = 0 /\ M = 0)%nat as [-> M0] by lia. unfold D, T. rewrite HB by lia. rewrite Z. unfold a, b, c, d. rewrite !bin_0. cbn [pow INR]. rewrite Iq, M0. cbn [INR]. unfold Rdiv. rewrite !Rmult_0_l, !Rmult_0_r, !Rplus_0_r. field. lra.
    - set (nu := INR (M + k)). assert (Hnu : 1 <= nu) by (unfold nu; change 1 with (INR 1); apply le_INR; lia).
      assert (Ik : INR k = nu - INR M) by (unfold nu; rewrite plus_INR; ring).
      assert (Vc : c k = INR q * a k / (nu + INR n)). { apply (Rmult_eq_reg_l (INR q + INR k)); [|lra]. rewrite <- Ec. rewrite Ik, Iq. field. lra. }
      assert (Vd : d k = INR p * c k / (nu + INR n - 1)). { apply (Rmult_eq_reg_l (INR p + INR k)); [|lra]. rewrite <- Ed. rewrite Ik. replace (INR p) with (INR n + INR M - 1) by lra. field. lra. }
      assert (Vb : (INR q + 1) * b k = (nu + INR n + 1) * a k). { rewrite Eb, Ik, Iq. f_equal. ring. }
      assert (DV : D k = ph * a k * (nu * A - r * B' + ((nu + INR M) * (nu - INR M) / (INR n + nu) * (((nu - 1) * (INR n - 2) - (INR n + 1)) / (2 * nu - 1)) - nu * (INR n - 2) / 2) * r ^ 2 * C / (INR n * (2 * INR n - 1)))).
      { unfold D, translate_C. rewrite g_below by (assumption || lia). fold nu. rewrite <- W.
        replace (Rabs r ^ 2) with (r ^ 2) by (rewrite pow2_abs; reflexivity). replace (IZR (Z.abs m)) with (INR M) by (rewrite INR_IZR_INZ, Zabs2Nat.id_abs; reflexivity).
        set (w := translate_weight r (M + k) n m). set (gg := g (M + k) n m). set (ps := psi H (M + k) m xi). field. repeat split; lra. }
      rewrite DV. unfold T. replace (ph * A * (INR q + 1) * b k) with (ph * A * ((INR q + 1) * b k)) by ring. rewrite Vb, Vd, Vc. rewrite Ik. replace (INR p) with (INR n + INR M - 1) by lra. rewrite Iq. field. repeat split; lra. }
  apply (is_ext (fun k => D k + e k) _ (1 * (/ (1 + t) ^ S q) * 0 + (ph * (- (INR n + 1) * A - r * B') * / (1 + t) ^ S q + (ph * A * (INR q + 1) * / (1 + t) ^ S (S q) + (ph * C * r ^ 2 * ((INR n + 1) / (2 * (2 * INR n - 1))) * / (1 + t) ^ p
     + - (ph * C * r ^ 2 * ((INR n - 2) * (INR q + 1) / (2 * INR n * (2 * INR n - 1)) + (INR n + 1) / (INR n * (2 * INR n - 1)))) * / (1 + t) ^ q))))).
  - intros k. unfold D, e, in_xu. ring.
  - pose proof t_pos as Tp. unfold out_xu, out_ux.
    transitivity (- (INR n + 1) * A * phi H n m x + C * ((INR n + 1) / (2 * (2 * INR n - 1))) * x ^ 2 * phi H n m x - A * (r * dphi H n m x) - r * (B' * phi H n m x)
      + r * C * ((INR n - 2) / (2 * INR n * (2 * INR n - 1))) * x * (x * dphi H n m x) - r * C * ((INR n + 1) / (INR n * (2 * INR n - 1)) * phi H n m x * x)); [|unfold Rdiv; ring].
    rewrite dphi_x, dphi_move, phi_move, x_val. fold q ph. rewrite Hq. cbn [pow]. assert (P : (1 + t) ^ p <> 0) by (apply pow_nonzero; lra).
    set (U := (1 + t) ^ p) in *. assert (Tn : 1 + t <> 0) by lra. set (u := 1 + t) in *. clearbody u U. clear - P Tn N1. field. repeat split; lra || assumption.
  - rewrite Rmult_0_r, Rplus_0_l. apply is_shift with (T := T).
    + rewrite DT. cbn [INR]. unfold Rdiv. ring.
    + rewrite DT. cbn [INR]. unfold Rdiv. ring.
    + intros k. rewrite DT, Ee.
      assert (S1 : (INR k + 1) * bin (S q) (S k) = - (INR q + INR k + 1) * bin (S q) k) by apply bin_next.
      assert (S2 : (INR (S k) + 1) * bin (S q) (S (S k)) = - (INR q + INR (S k) + 1) * bin (S q) (S k)) by apply bin_next.
      rewrite !S_INR in *. replace (M + S (S k))%nat with (S (S (M + k))) by lia. rewrite !S_INR.
      assert (G : a (S (S k)) * r ^ 2 * ((INR k + 2) * (INR k + 1)) = a k * xi ^ 2 * ((INR q + INR k + 2) * (INR q + INR k + 1))).
      { unfold a. cbn [pow]. replace (bin (S q) (S (S k)) * (t * (t * t ^ k)) * (r * (r * 1)) * ((INR k + 2) * (INR k + 1))) with ((INR k + 1) * ((INR k + 1 + 1) * bin (S q) (S (S k))) * t ^ k * (t * r) ^ 2) by ring.
        rewrite S2. replace ((INR k + 1) * (- (INR q + (INR k + 1) + 1) * bin (S q) (S k))) with (- (INR q + (INR k + 1) + 1) * ((INR k + 1) * bin (S q) (S k))) by ring. rewrite S1.
        replace (t * r) with xi by (field; exact Hr). ring. }
      assert (Ik : INR (M + k) = INR M + INR k) by apply plus_INR. pose proof (pos_INR k) as Pk.
      set (v := INR (M + k)) in *.
      replace (C * ph * a (S (S k)) * r ^ 2 * ((v + 1 + 1 - 2) / (2 * (2 * (v + 1 + 1) - 1))) * ((INR k + 1 + 1) * (INR k + 1 + 1 - 1) / ((INR n + (v + 1 + 1)) * (INR n + (v + 1 + 1) - 1))))
        with (C * ph * (v / (2 * (2 * v + 3))) * (a (S (S k)) * r ^ 2 * ((INR k + 2) * (INR k + 1))) / ((INR n + v + 2) * (INR n + v + 1))) by (field; repeat split; lra).
      rewrite G, Iq. replace (INR n + INR M + INR k + 2) with (INR n + v + 2) by lra. replace (INR n + INR M + INR k + 1) with (INR n + v + 1) by lra. field. repeat split; lra.
    + assert (Z : Un_cv a 0) by (apply bin_terms, t_small).
      intros eps He. set (K := Rabs (C * ph * xi ^ 2) + 1). assert (Kp : 0 < K) by (unfold K; pose proof (Rabs_pos (C * ph * xi ^ 2)); lra).
      destruct (Z (eps / K) ltac:(apply Rdiv_lt_0_compat; lra)) as (n0 & Hn0). exists n0. intros k Hk. specialize (Hn0 k Hk). unfold R_dist in *. rewrite Rminus_0_r in *. rewrite Ee.
      set (v := INR (M + k)). pose proof (pos_INR (M + k)) as Pv. fold v in Pv.
      assert (Q : 0 <= v / (2 * (2 * v + 3)) <= 1). { split; [apply Rmult_le_pos; [lra|apply Rlt_le, Rinv_0_lt_compat; lra]|]. apply (Rmult_le_reg_r (2 * (2 * v + 3))); [lra|]. unfold Rdiv. rewrite Rmult_assoc, Rinv_l by lra. lra. }
      replace (C * ph * a k * (v / (2 * (2 * v + 3))) * xi ^ 2) with (C * ph * xi ^ 2 * (v / (2 * (2 * v + 3))) * a k) by ring. rewrite !Rabs_mult with (y := a k). rewrite Rabs_mult with (y := v / (2 * (2 * v + 3))), (Rabs_pos_eq (v / (2 * (2 * v + 3)))) by lra.
      apply Rle_lt_trans with (K * Rabs (a k)).
      * apply Rmult_le_compat_r; [apply Rabs_pos|]. unfold K. pose proof (Rabs_pos (C * ph * xi ^ 2)). nra.
      * apply (Rmult_lt_compat_l K) in Hn0; [|exact Kp]. replace (K * (eps / K)) with eps in Hn0 by (field; lra). exact Hn0.
    + unfold T. repeat apply is_plus; apply is_scal; apply bin_series, t_small.
Qed.
End One.
