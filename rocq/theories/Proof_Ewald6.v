(** Limits at zero separation of (unbounded - real-space) pair functions. *)
From Coq Require Import Reals Lra Lia Arith List.
From Verif Require Import Base Model_Mob Model_Ewald Spec_Calc Spec_Ewald Proof_Calc Proof_Mob Proof_Mob2
  Proof_Ewald1 Proof_Ewald2 Proof_Ewald3 Proof_Ewald4 Proof_Ewald5.
Import ListNotations.
Local Open Scope R_scope.

(** ** Monotone functions from the sign of the derivative *)
Lemma deriv_nonneg f df a b : a <= b -> (forall t, derivable_pt_lim f t (df t)) ->
  (forall t, a <= t <= b -> 0 <= df t) -> f a <= f b.
Proof.
  intros Hab Hd Hp. destruct (Req_dec a b) as [->|Hne]; [lra|].
  destruct (MVT_cor2 f df a b) as [c [Hc1 Hc2]]; [lra|intros; apply Hd|].
  assert (0 <= df c) by (apply Hp; lra). nra.
Qed.

Section Erf.
Variable lam : R.
Hypothesis Hlam : 0 < lam.
Notation E := (bigE lam).
Definition c0 : R := 2 / sqrt PI * lam.
Lemma sqrtpi_pos : 0 < sqrt PI. Proof. apply sqrt_lt_R0. apply PI_RGT_0. Qed.
Lemma c0_pos : 0 < c0.
Proof. unfold c0. pose proof sqrtpi_pos. apply Rmult_lt_0_compat; [|exact Hlam]. apply Rdiv_lt_0_compat; lra. Qed.
Lemma E_0 : E 0 = c0.
Proof. unfold bigE, c0. replace (- 0 ^ 2 * lam ^ 2) with 0 by ring. rewrite exp_0. ring. Qed.
Lemma E_pos s : 0 < E s.
Proof.
  unfold bigE. pose proof sqrtpi_pos. pose proof (exp_pos (- s ^ 2 * lam ^ 2)).
  apply Rmult_lt_0_compat; [|exact Hlam]. apply Rmult_lt_0_compat; [|assumption]. apply Rdiv_lt_0_compat; lra.
Qed.
Lemma E_decr a b : 0 <= a <= b -> E b <= E a.
Proof.
  intros H. unfold bigE. pose proof sqrtpi_pos as Hs.
  apply Rmult_le_compat_r; [lra|]. apply Rmult_le_compat_l; [apply Rlt_le, Rdiv_lt_0_compat; lra|].
  destruct (Req_dec a b) as [->|]; [lra|]. apply Rlt_le. apply exp_increasing.
  assert (0 < lam ^ 2) by nra. assert (a ^ 2 < b ^ 2) by nra. nra.
Qed.

Definition Erf (s : R) : R := 1 - erfc (lam * s).
Lemma Erf_deriv s : derivable_pt_lim Erf s (E s).
Proof.
  unfold Erf. eapply dl_eq.
  - apply (derivable_pt_lim_minus (fun _ => 1) (fun s => generate_erfcs s lam 0)).
    + apply derivable_pt_lim_const.
    + apply (erfcs_chain lam s 0). lia.
  - unfold generate_erfcs, bigE. ring.
Qed.

(** erf minus the first terms of its expansion, and the scaled remainder *)
Definition rem (s : R) : R :=
  Erf s + - (s ^ 1 * 1 * E s + 2 / 3 * lam ^ 2 * s ^ 3 * E s + 4 / 15 * lam ^ 4 * s ^ 5 * E s).
Definition Q3 (s : R) : R := rem s / s ^ 7.
Lemma termE (c : R) n s : derivable_pt_lim (fun t => c * t ^ n * E t) s
  (c * (INR n * s ^ pred n) * E s + c * s ^ n * (- (2) * lam ^ 2 * s * E s)).
Proof. apply (derivable_pt_lim_mult (fun t => c * t ^ n) E); [apply dl_mono|apply bigE_deriv]. Qed.
Lemma rem_deriv s : derivable_pt_lim rem s (8 / 15 * lam ^ 6 * s ^ 6 * E s).
Proof.
  apply (dl_ext (fun s => Erf s + - (1 * s ^ 1 * E s + 2 / 3 * lam ^ 2 * s ^ 3 * E s + 4 / 15 * lam ^ 4 * s ^ 5 * E s))).
  { intros t. unfold rem. ring. }
  eapply dl_eq.
  - apply (derivable_pt_lim_plus Erf (fun s => - (1 * s ^ 1 * E s + 2 / 3 * lam ^ 2 * s ^ 3 * E s + 4 / 15 * lam ^ 4 * s ^ 5 * E s))); [apply Erf_deriv|].
    apply (derivable_pt_lim_opp (fun s => 1 * s ^ 1 * E s + 2 / 3 * lam ^ 2 * s ^ 3 * E s + 4 / 15 * lam ^ 4 * s ^ 5 * E s)).
    apply (derivable_pt_lim_plus (fun s => 1 * s ^ 1 * E s + 2 / 3 * lam ^ 2 * s ^ 3 * E s) (fun s => 4 / 15 * lam ^ 4 * s ^ 5 * E s)); [|apply termE].
    apply (derivable_pt_lim_plus (fun s => 1 * s ^ 1 * E s) (fun s => 2 / 3 * lam ^ 2 * s ^ 3 * E s)); apply termE.
  - simpl INR. simpl pred. field.
Qed.
Lemma rem_0 : rem 0 = 0.
Proof. unfold rem, Erf. replace (lam * 0) with 0 by ring. rewrite erfc_0. ring. Qed.

Lemma Q3_bounds s : 0 < s -> 8 / 105 * lam ^ 6 * E s <= Q3 s <= 8 / 105 * lam ^ 6 * c0.
Proof.
  intros Hs.
  assert (Hl6 : 0 < lam ^ 6) by (apply pow_lt; exact Hlam).
  assert (Hs7 : 0 < s ^ 7) by (apply pow_lt; exact Hs).
  assert (A : forall C, (forall t, 0 <= t <= s -> E t <= C) -> rem s <= 8 / 105 * lam ^ 6 * C * s ^ 7).
  { intros C HC.
    assert (H : (8 / 105 * lam ^ 6 * C) * 0 ^ 7 + - rem 0 <= (8 / 105 * lam ^ 6 * C) * s ^ 7 + - rem s).
    { apply (deriv_nonneg (fun t => (8 / 105 * lam ^ 6 * C) * t ^ 7 + - rem t)
        (fun t => (8 / 105 * lam ^ 6 * C) * (INR 7 * t ^ pred 7) + - (8 / 15 * lam ^ 6 * t ^ 6 * E t))).
      - lra.
      - intros t. apply (derivable_pt_lim_plus (fun t => (8 / 105 * lam ^ 6 * C) * t ^ 7) (fun t => - rem t)).
        + apply dl_mono.
        + apply (derivable_pt_lim_opp rem). apply rem_deriv.
      - intros t Ht. simpl INR. simpl pred.
        assert (0 <= t ^ 6) by (apply pow_le; lra). specialize (HC t Ht).
        replace (8 / 105 * lam ^ 6 * C * ((1 + 1 + 1 + 1 + 1 + 1 + 1) * t ^ 6) + - (8 / 15 * lam ^ 6 * t ^ 6 * E t))
          with (8 / 15 * (lam ^ 6 * t ^ 6) * (C - E t)) by field.
        apply Rmult_le_pos; [|lra]. apply Rmult_le_pos; [lra|]. apply Rmult_le_pos; lra. }
    rewrite rem_0 in H. replace (0 ^ 7) with 0 in H by ring. lra. }
  assert (B : 8 / 105 * lam ^ 6 * E s * s ^ 7 <= rem s).
  { assert (H : (- (8 / 105 * lam ^ 6 * E s)) * 0 ^ 7 + rem 0 <= (- (8 / 105 * lam ^ 6 * E s)) * s ^ 7 + rem s).
    { apply (deriv_nonneg (fun t => (- (8 / 105 * lam ^ 6 * E s)) * t ^ 7 + rem t)
        (fun t => (- (8 / 105 * lam ^ 6 * E s)) * (INR 7 * t ^ pred 7) + 8 / 15 * lam ^ 6 * t ^ 6 * E t)).
      - lra.
      - intros t. apply (derivable_pt_lim_plus (fun t => (- (8 / 105 * lam ^ 6 * E s)) * t ^ 7) rem).
        + apply dl_mono.
        + apply rem_deriv.
      - intros t Ht. simpl INR. simpl pred.
        assert (0 <= t ^ 6) by (apply pow_le; lra).
        assert (E s <= E t) by (apply E_decr; lra).
        replace (- (8 / 105 * lam ^ 6 * E s) * ((1 + 1 + 1 + 1 + 1 + 1 + 1) * t ^ 6) + 8 / 15 * lam ^ 6 * t ^ 6 * E t)
          with (8 / 15 * (lam ^ 6 * t ^ 6) * (E t - E s)) by field.
        apply Rmult_le_pos; [|lra]. apply Rmult_le_pos; [lra|]. apply Rmult_le_pos; lra. }
    rewrite rem_0 in H. replace (0 ^ 7) with 0 in H by ring. lra. }
  specialize (A c0).
  assert (A' : rem s <= 8 / 105 * lam ^ 6 * c0 * s ^ 7).
  { apply A. intros t Ht. rewrite <- E_0. apply E_decr. lra. }
  unfold Q3. split.
  - apply (Rmult_le_reg_r (s ^ 7)); [exact Hs7|]. unfold Rdiv. rewrite (Rmult_assoc (rem s)).
    rewrite Rinv_l by lra. unfold Rdiv in B. lra.
  - apply (Rmult_le_reg_r (s ^ 7)); [exact Hs7|]. unfold Rdiv. rewrite (Rmult_assoc (rem s)).
    rewrite Rinv_l by lra. unfold Rdiv in A'. lra.
Qed.
Lemma Erf_expand s : 0 < s ->
  Erf s = E s * (s + 2 / 3 * lam ^ 2 * s ^ 3 + 4 / 15 * lam ^ 4 * s ^ 5) + s ^ 7 * Q3 s.
Proof. intros Hs. unfold Q3, rem. field. lra. Qed.

(** ** Limits at the origin *)
Lemma lim0_ext f g v : (forall q, nonzero q -> f q = g q) -> lim0 f v -> lim0 g v.
Proof.
  intros H L ep Hep. destruct (L ep Hep) as [d [Hd Hq]]. exists d. split; [exact Hd|].
  intros q Hn Hl. rewrite <- H by exact Hn. apply Hq; assumption.
Qed.
Lemma lim0_eq f v w : lim0 f v -> v = w -> lim0 f w.
Proof. intros H ->. exact H. Qed.
Lemma lim0_const c : lim0 (fun _ => c) c.
Proof. intros ep Hep. exists 1. split; [lra|]. intros. replace (c - c) with 0 by ring. rewrite Rabs_R0. exact Hep. Qed.
Lemma lim0_plus f g v w : lim0 f v -> lim0 g w -> lim0 (fun q => f q + g q) (v + w).
Proof.
  intros Hf Hg ep Hep. destruct (Hf (ep / 2)) as [d1 [H1 H1']]; [lra|]. destruct (Hg (ep / 2)) as [d2 [H2 H2']]; [lra|].
  exists (Rmin d1 d2). split; [apply Rmin_pos; assumption|]. intros q Hn Hl.
  pose proof (Rmin_l d1 d2). pose proof (Rmin_r d1 d2).
  specialize (H1' q Hn ltac:(lra)). specialize (H2' q Hn ltac:(lra)).
  replace (f q + g q - (v + w)) with ((f q - v) + (g q - w)) by ring.
  pose proof (Rabs_triang (f q - v) (g q - w)). lra.
Qed.
Lemma lim0_mult f g v w : lim0 f v -> lim0 g w -> lim0 (fun q => f q * g q) (v * w).
Proof.
  intros Hf Hg ep Hep.
  pose (M := Rabs v + Rabs w + 1).
  assert (HM : 1 <= M) by (unfold M; pose proof (Rabs_pos v); pose proof (Rabs_pos w); lra).
  assert (He : 0 < Rmin 1 (ep / (2 * M))).
  { apply Rmin_pos; [lra|]. apply Rdiv_lt_0_compat; lra. }
  destruct (Hf _ He) as [d1 [H1 H1']]. destruct (Hg _ He) as [d2 [H2 H2']].
  exists (Rmin d1 d2). split; [apply Rmin_pos; assumption|]. intros q Hn Hl.
  pose proof (Rmin_l d1 d2). pose proof (Rmin_r d1 d2).
  specialize (H1' q Hn ltac:(lra)). specialize (H2' q Hn ltac:(lra)).
  pose proof (Rmin_l 1 (ep / (2 * M))). pose proof (Rmin_r 1 (ep / (2 * M))).
  set (x := f q - v) in *. set (y := g q - w) in *.
  replace (f q * g q - v * w) with (x * g q + v * y) by (unfold x, y; ring).
  assert (Hgb : Rabs (g q) <= M - Rabs v).
  { replace (g q) with (y + w) by (unfold y; ring). pose proof (Rabs_triang y w). unfold M. lra. }
  pose proof (Rabs_triang (x * g q) (v * y)) as Ht. rewrite !Rabs_mult in Ht.
  assert (Rabs x * Rabs (g q) <= ep / (2 * M) * (M - Rabs v)).
  { apply Rmult_le_compat; try apply Rabs_pos; lra. }
  assert (Rabs v * Rabs y <= Rabs v * (ep / (2 * M))).
  { apply Rmult_le_compat_l; [apply Rabs_pos|lra]. }
  assert (ep / (2 * M) * (M - Rabs v) + Rabs v * (ep / (2 * M)) = ep / 2) by (field; lra).
  lra.
Qed.
Lemma lim0_scal c f v : lim0 f v -> lim0 (fun q => c * f q) (c * v).
Proof. intros H. apply lim0_mult; [apply lim0_const|exact H]. Qed.
Lemma lim0_minus f g v w : lim0 f v -> lim0 g w -> lim0 (fun q => f q - g q) (v - w).
Proof.
  intros Hf Hg. apply (lim0_ext (fun q => f q + -1 * g q)); [intros; ring|].
  apply (lim0_eq _ (v + -1 * w)); [|ring]. apply lim0_plus; [exact Hf|apply lim0_scal; exact Hg].
Qed.
Lemma coord_le i q : (i < 3)%nat -> Rabs (q i) <= len q.
Proof.
  intros Hi. rewrite <- (Rabs_pos_eq (len q)) by (apply sqrt_pos). apply Rsqr_le_abs_0. unfold Rsqr.
  rewrite len_sq. idx3 Hi; unfold dot3; nra.
Qed.
Lemma lim0_le f C : (forall q, nonzero q -> Rabs (f q) <= C * len q) -> 0 <= C -> lim0 f 0.
Proof.
  intros H HC ep Hep. exists (ep / (C + 1)). split; [apply Rdiv_lt_0_compat; lra|].
  intros q Hn Hl. rewrite Rminus_0_r. eapply Rle_lt_trans; [apply H; exact Hn|].
  pose proof (len_pos q Hn).
  assert (C * len q <= (C + 1) * len q) by nra.
  assert ((C + 1) * len q < (C + 1) * (ep / (C + 1))) by (apply Rmult_lt_compat_l; lra).
  replace ((C + 1) * (ep / (C + 1))) with ep in * by (field; lra). lra.
Qed.
Lemma lim0_coord i : (i < 3)%nat -> lim0 (fun q => q i) 0.
Proof. intros Hi. apply (lim0_le _ 1); [|lra]. intros q _. rewrite Rmult_1_l. apply coord_le. exact Hi. Qed.
Lemma lim0_len : lim0 len 0.
Proof. apply (lim0_le _ 1); [|lra]. intros q Hq. rewrite Rabs_pos_eq by (apply Rlt_le, len_pos; exact Hq). lra. Qed.
Lemma lim0_quot i j k l : (i < 3)%nat -> (j < 3)%nat -> (k < 3)%nat -> (l < 3)%nat ->
  lim0 (fun q => q i * q j * q k * q l / len q ^ 2) 0.
Proof.
  intros Hi Hj Hk Hl.
  apply (lim0_ext (fun q => q i * (q j * q k * q l / len q ^ 2))).
  { intros q Hq. unfold Rdiv. ring. }
  intros ep Hep. exists (Rmin 1 ep). split; [apply Rmin_pos; lra|]. intros q Hn Hlq.
  pose proof (Rmin_l 1 ep). pose proof (Rmin_r 1 ep). pose proof (len_pos q Hn) as Hp.
  rewrite Rminus_0_r. rewrite Rabs_mult. unfold Rdiv. rewrite !Rabs_mult.
  rewrite (Rabs_pos_eq (/ len q ^ 2)).
  2:{ apply Rlt_le, Rinv_0_lt_compat. apply pow_lt. exact Hp. }
  pose proof (coord_le i q Hi). pose proof (coord_le j q Hj). pose proof (coord_le k q Hk). pose proof (coord_le l q Hl).
  assert (Rabs (q j) * Rabs (q k) * Rabs (q l) <= len q * len q * len q).
  { apply Rmult_le_compat; try apply Rabs_pos; try assumption.
    - apply Rmult_le_pos; apply Rabs_pos.
    - apply Rmult_le_compat; try apply Rabs_pos; assumption. }
  assert (Rabs (q j) * Rabs (q k) * Rabs (q l) * / len q ^ 2 <= len q).
  { apply (Rmult_le_reg_r (len q ^ 2)); [apply pow_lt; exact Hp|].
    rewrite Rmult_assoc, Rinv_l by (apply pow_nonzero; lra). simpl. lra. }
  assert (Rabs (q i) * (Rabs (q j) * Rabs (q k) * Rabs (q l) * / len q ^ 2) <= len q * len q).
  { apply Rmult_le_compat; try apply Rabs_pos; try assumption.
    apply Rmult_le_pos; [|apply Rlt_le, Rinv_0_lt_compat, pow_lt; exact Hp].
    repeat apply Rmult_le_pos; apply Rabs_pos. }
  nra.
Qed.
Lemma lim0_E : lim0 (fun q => E (len q)) c0.
Proof.
  assert (Hc : continuity_pt E 0).
  { apply derivable_continuous_pt. eexists. apply bigE_deriv. }
  intros ep Hep. destruct (Hc ep Hep) as [d [Hd H]]. exists d. split; [exact Hd|].
  intros q Hn Hl. pose proof (len_pos q Hn). specialize (H (len q)). simpl in H. unfold R_dist in H.
  rewrite E_0 in H. apply H. split.
  - unfold D_x, no_cond. split; [exact I|lra].
  - rewrite Rminus_0_r. rewrite Rabs_pos_eq; lra.
Qed.
Lemma lim0_Q3 : lim0 (fun q => Q3 (len q)) (8 / 105 * lam ^ 6 * c0).
Proof.
  pose proof (lim0_scal (8 / 105 * lam ^ 6) _ _ lim0_E) as L.
  intros ep Hep. destruct (L ep Hep) as [d [Hd H]]. exists d. split; [exact Hd|].
  intros q Hn Hl. specialize (H q Hn Hl). pose proof (Q3_bounds (len q) (len_pos q Hn)) as [B1 B2].
  apply Rabs_def2 in H. apply Rabs_def1; lra.
Qed.
End Erf.
