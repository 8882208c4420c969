(** The pair mobilities after a change of the unit of length. *)
From Coq Require Import Reals Arith Bool List Lia Lra FunctionalExtensionality.
From Verif Require Import Base Model_Pack Model_Mob Model_Layout Model_Minf Spec_Layout Spec_Minf Spec_R2B Spec_Rescale
  Proof_Mob2 Proof_Minf Proof_Minf3.
Local Open Scope R_scope.

Section S.
Variable h : R.
Hypothesis Hh : 0 < h.

Lemma norm_vscal r : norm (vscal h r) = h * norm r.
Proof.
  unfold norm, vscal. replace ((h * r 0%nat) ^ 2 + (h * r 1%nat) ^ 2 + (h * r 2%nat) ^ 2) with (h ^ 2 * (r 0%nat ^ 2 + r 1%nat ^ 2 + r 2%nat ^ 2)) by ring.
  rewrite sqrt_mult_alt by (apply pow2_ge_0). rewrite sqrt_pow2 by lra. reflexivity.
Qed.
Lemma vopp_vscal r : vopp (vscal h r) = vscal h (vopp r).
Proof. apply functional_extensionality. intros i. unfold vopp, vscal. ring. Qed.
Lemma vsub_vscal x y : vsub (vscal h x) (vscal h y) = vscal h (vsub x y).
Proof. apply functional_extensionality. intros i. unfold vsub, vscal. ring. Qed.
Lemma vadd_vscal x y : vadd (vscal h x) (vscal h y) = vscal h (vadd x y).
Proof. apply functional_extensionality. intros i. unfold vadd, vscal. ring. Qed.
Lemma vscal_comm u x : vscal u (vscal h x) = vscal h (vscal u x).
Proof. apply functional_extensionality. intros i. unfold vscal. ring. Qed.

Section K.
Variables (r : vec) (s : R).
Hypothesis Hs : 0 < s.
Notation r' := (vscal h r).
Ltac t := unfold vscal; field; lra.
Lemma J_scal i j : J (r' i) (r' j) i j (h * s) = J (r i) (r j) i j s / h.
Proof. unfold J. t. Qed.
Lemma LapJ_scal i j : Lap_J (r' i) (r' j) i j (h * s) = Lap_J (r i) (r j) i j s / h ^ 3.
Proof. unfold Lap_J. t. Qed.
Lemma DJ_scal l i j : D_J r' (h * s) l i j = D_J r s l i j / h ^ 2.
Proof. unfold D_J. t. Qed.
Lemma DDJ_scal m l i j : DD_J r' (h * s) m l i j = DD_J r s m l i j / h ^ 3.
Proof. unfold DD_J. t. Qed.
Lemma DLapJ_scal k i j : DLap_J r' (h * s) k i j = DLap_J r s k i j / h ^ 4.
Proof. unfold DLap_J. t. Qed.
Lemma DLapK_scal l i j k : DLap_K r' (h * s) l i j k = DLap_K r s l i j k / h ^ 5.
Proof. unfold DLap_K. t. Qed.
Lemma lsum2_scal cond f g u : (forall k l, f k l = u * g k l) -> lsum2 cond f = u * lsum2 cond g.
Proof.
  intros H. unfold lsum2. rewrite <- rsum_scal_l. apply rsum_ext. intros k _. rewrite <- rsum_scal_l. apply rsum_ext. intros l _.
  destruct (cond k l); [apply H|ring].
Qed.
Lemma Rt_scal i j : Rt r' (h * s) i j = Rt r s i j / h ^ 2.
Proof.
  unfold Rt. rewrite (lsum2_scal _ _ (fun k l => levi j k l * D_J r s k i l) (/ h ^ 2)); [field; lra|]. intros. rewrite DJ_scal. field. lra.
Qed.
Lemma LapR_scal i j : Lap_R r' (h * s) i j = Lap_R r s i j / h ^ 4.
Proof.
  unfold Lap_R. rewrite (lsum2_scal _ _ (fun k l => levi j k l * DLap_J r s k i l) (/ h ^ 4)); [field; lra|]. intros. rewrite DLapJ_scal. field. lra.
Qed.
Lemma K_scal i j k : K r' (h * s) i j k = K r s i j k / h ^ 2.
Proof. unfold K. rewrite !DJ_scal. field. lra. Qed.
Lemma DR_scal l i j : D_R r' (h * s) l i j = D_R r s l i j / h ^ 3.
Proof.
  unfold D_R. rewrite (lsum2_scal _ _ (fun m n => levi j m n * DD_J r s l m i n) (/ h ^ 3)); [field; lra|]. intros. rewrite DDJ_scal. field. lra.
Qed.
Lemma DK_scal l i j k : D_K r' (h * s) l i j k = D_K r s l i j k / h ^ 3.
Proof. unfold D_K. rewrite !DDJ_scal. field. lra. Qed.
End K.

(** The distance is resolved before and after, or zero. *)
Definition both (r : vec) : Prop := (tiny < norm r /\ tiny < h * norm r) \/ forall i, (i < 3)%nat -> r i = 0.
Lemma both_opp r : both r -> both (vopp r).
Proof.
  intros [H|H]; [left|right].
  - replace (norm (vopp r)) with (norm r); [exact H|]. unfold norm, vopp. f_equal. ring.
  - intros i Hi. unfold vopp. rewrite H by assumption. ring.
Qed.
Lemma l1_norm r : norm r <= Rabs (r 0%nat) + Rabs (r 1%nat) + Rabs (r 2%nat).
Proof.
  unfold norm. pose proof (Rabs_pos (r 0%nat)). pose proof (Rabs_pos (r 1%nat)). pose proof (Rabs_pos (r 2%nat)).
  rewrite <- (sqrt_pow2 (Rabs (r 0%nat) + Rabs (r 1%nat) + Rabs (r 2%nat))) by lra. apply sqrt_le_1_alt.
  rewrite <- (pow2_abs (r 0%nat)), <- (pow2_abs (r 1%nat)), <- (pow2_abs (r 2%nat)). nra.
Qed.
Lemma norm_zero3 r : (forall i, (i < 3)%nat -> r i = 0) -> norm r = 0.
Proof. intros H. unfold norm. rewrite !H by lia. replace (0 ^ 2 + 0 ^ 2 + 0 ^ 2) with 0 by ring. apply sqrt_0. Qed.

Ltac far H := destruct (Rlt_dec tiny _) as [_|H0]; [|exfalso; apply H0; exact H].
Ltac near H := destruct (Rlt_dec tiny _) as [H0|_]; [exfalso; pose proof tiny_pos; rewrite H in H0; lra|].

Section P.
Variables (r : vec) (a1 a2 c mu : R).
Hypothesis HB : both r.
Hypothesis Ha1 : 0 < a1.
Hypothesis Hmu : mu <> 0.
Notation s := (norm r).
Notation r' := (vscal h r).
Lemma PI_nz : PI <> 0. Proof. apply Rgt_not_eq, PI_RGT_0. Qed.
Ltac pos := match goal with H : tiny < norm r |- _ => pose proof tiny_pos; assert (0 < norm r) by lra end.

Lemma M11_scal i j : M11 (r' i) (r' j) (h * s) (h * a1) (h * a2) i j c mu = M11 (r i) (r j) s a1 a2 i j c mu / h.
Proof.
  unfold M11. destruct HB as [[A B]|Z].
  - far B. far A. pos. rewrite J_scal, LapJ_scal by assumption. field. lra.
  - rewrite (norm_zero3 r Z), Rmult_0_r. destruct (Rlt_dec tiny 0) as [H|_]; [pose proof tiny_pos; lra|]. field. repeat split; try lra; apply PI_nz.
Qed.
Lemma M12_scal i j : M12 r' (h * s) (h * a1) (h * a2) i j c mu = M12 r s a1 a2 i j c mu / h ^ 2.
Proof.
  unfold M12. destruct HB as [[A B]|Z].
  - far B. far A. pos. rewrite Rt_scal, LapR_scal by assumption. field. lra.
  - rewrite (norm_zero3 r Z), Rmult_0_r. destruct (Rlt_dec tiny 0) as [H|_]; [pose proof tiny_pos; lra|]. unfold Rdiv. ring.
Qed.
Lemma M13_scal i j k : M13 r' (h * s) (h * a1) (h * a2) i j k c mu = M13 r s a1 a2 i j k c mu / h ^ 2.
Proof.
  unfold M13. destruct HB as [[A B]|Z].
  - far B. far A. pos. unfold Lap_K. rewrite K_scal, DLapJ_scal by assumption. field. lra.
  - rewrite (norm_zero3 r Z), Rmult_0_r. destruct (Rlt_dec tiny 0) as [H|_]; [pose proof tiny_pos; lra|]. unfold Rdiv. ring.
Qed.
Lemma l1_far : tiny < norm r -> tiny < Rabs (r 0%nat) + Rabs (r 1%nat) + Rabs (r 2%nat).
Proof. intros A. pose proof (l1_norm r). lra. Qed.
Lemma l1_far' : tiny < h * norm r -> tiny < Rabs (r' 0%nat) + Rabs (r' 1%nat) + Rabs (r' 2%nat).
Proof. intros A. pose proof (l1_norm r'). rewrite norm_vscal in H. lra. Qed.
Lemma l1_zero : (forall i, (i < 3)%nat -> r i = 0) -> Rabs (r 0%nat) + Rabs (r 1%nat) + Rabs (r 2%nat) = 0.
Proof. intros Z. rewrite !Z by lia. rewrite Rabs_R0. ring. Qed.
Lemma l1_zero' : (forall i, (i < 3)%nat -> r i = 0) -> Rabs (r' 0%nat) + Rabs (r' 1%nat) + Rabs (r' 2%nat) = 0.
Proof. intros Z. unfold vscal. rewrite !Z by lia. rewrite Rmult_0_r, Rabs_R0. ring. Qed.
Lemma M22_scal i j : M22 r' (h * s) (h * a1) (h * a2) i j c mu = M22 r s a1 a2 i j c mu / h ^ 3.
Proof.
  unfold M22. destruct HB as [[A B]|Z].
  - pose proof (l1_far A) as A'. pose proof (l1_far' B) as B'. far B'. far A'. pos.
    rewrite (lsum2_scal _ _ (fun k l => levi i k l * D_R r s k l j) (/ h ^ 3)); [field; lra|]. intros. rewrite DR_scal by assumption. field. lra.
  - rewrite (l1_zero Z), (l1_zero' Z). destruct (Rlt_dec tiny 0) as [H|_]; [pose proof tiny_pos; lra|]. field. repeat split; try lra; apply PI_nz.
Qed.
Lemma M23_scal i j k : M23 r' (h * s) (h * a1) (h * a2) i j k c mu = M23 r s a1 a2 i j k c mu / h ^ 3.
Proof.
  unfold M23. destruct HB as [[A B]|Z].
  - pose proof (l1_far A) as A'. pose proof (l1_far' B) as B'. far B'. far A'. pos.
    rewrite (lsum2_scal _ _ (fun l m => levi i l m * (D_K r s l m j k + (a2 ^ 2 / 6) * DLap_K r s l m j k)) (/ h ^ 3)); [field; lra|].
    intros. rewrite DK_scal, DLapK_scal by assumption. field. lra.
  - rewrite (l1_zero Z), (l1_zero' Z). destruct (Rlt_dec tiny 0) as [H|_]; [pose proof tiny_pos; lra|]. unfold Rdiv. ring.
Qed.
Lemma M33_scal i j k l : 0 < s -> M33 r' (h * s) (h * a1) (h * a2) i j k l c mu = M33 r s a1 a2 i j k l c mu / h ^ 3.
Proof. intros Hs. unfold M33. rewrite !DK_scal, !DLapK_scal by assumption. field. lra. Qed.
End P.

Lemma cond_scal f g u m : (forall k l, f k l = g k l / u) -> condense_idx f m = condense_idx g m / u.
Proof.
  intros H. unfold condense_idx, Rdiv. rewrite <- rsum_scal_r. apply rsum_ext. intros j _. rewrite <- rsum_scal_r. apply rsum_ext. intros k _.
  rewrite H. unfold Rdiv. ring.
Qed.

(** Power of length of a kind. *)
Definition kw (k : kind) : R := match k with KU | KB => 1 | KO | KS => h end.

Theorem pmob_scal k1 k2 r ap aq c mu i j : both r -> 0 < ap -> 0 < aq -> mu <> 0 ->
  pmob k1 k2 (vscal h r) (h * norm r) (h * ap) (h * aq) c mu i j = pmob k1 k2 r (norm r) ap aq c mu i j / (h * kw k1 * kw k2).
Proof.
  intros HB Hp Hq Hmu. pose proof (both_opp r HB) as HO.
  assert (N : norm (vopp r) = norm r) by (unfold norm, vopp; f_equal; ring).
  assert (E2 : h * h * 1 = h ^ 2) by ring. assert (E2' : h * 1 * h = h ^ 2) by ring.
  assert (E1 : h * 1 * 1 = h) by ring. assert (E3 : h * h * h = h ^ 3) by ring.
  destruct k1, k2; unfold pmob, kw; rewrite ?E1, ?E2, ?E2', ?E3, ?vopp_vscal; try (apply M11_scal; assumption).
  - apply M12_scal; assumption.
  - apply cond_scal. intros. apply M13_scal; assumption.
  - rewrite <- N. apply M12_scal; assumption.
  - apply M22_scal; assumption.
  - apply cond_scal. intros. apply M23_scal; assumption.
  - rewrite <- N. apply M12_scal; assumption.
  - apply cond_scal. intros. rewrite <- N. apply M13_scal; assumption.
  - apply cond_scal. intros. rewrite <- N. apply M23_scal; assumption.
  - destruct HB as [[A B]|Z].
    + far B. far A. pose proof tiny_pos. apply cond_scal. intros. apply cond_scal. intros. apply M33_scal; lra.
    + rewrite (norm_zero3 r Z), Rmult_0_r. destruct (Rlt_dec tiny 0) as [H|_]; [pose proof tiny_pos; lra|]. field. repeat split; try lra; apply PI_nz.
  - apply cond_scal. intros. rewrite <- N. apply M13_scal; assumption.
  - apply M12_scal; assumption.
  - apply cond_scal. intros. apply M13_scal; assumption.
Qed.
End S.
