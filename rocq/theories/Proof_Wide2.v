(** Widely spaced beads: the far-field mobility matrix is positive definite. *)
From Coq Require Import Reals Arith Bool List Lia Lra FunctionalExtensionality.
From Verif Require Import Base Model_Pack Model_Mob Model_Layout Model_Minf Model_L Spec_Layout Spec_Minf Spec_Convert Spec_Posdef Spec_Rescale
  Proof_Layout Proof_Minf Proof_Mob Proof_Mob2 Proof_L Proof_Minf2 Proof_Minf3 Proof_Minf4 Proof_Posdef Proof_Rescale1 Proof_Rescale2 Proof_Wide1.
Import ListNotations.
Local Open Scope R_scope.

(** ** Dominant diagonal *)
Lemma rsum_le n f g : (forall i, (i < n)%nat -> f i <= g i) -> rsum n f <= rsum n g.
Proof.
  intros H. assert (0 <= rsum n (fun i => g i - f i)) as K.
  { apply rsum_nonneg. intros i Hi. specialize (H i Hi). lra. }
  rewrite rsum_minus in K. lra.
Qed.
Lemma rsum_const n k : rsum n (fun _ => k) = INR n * k.
Proof. induction n; [cbn; ring|]. cbn [rsum]. rewrite IHn, S_INR. ring. Qed.
Lemma Rminus_eq_compat2 a b c d : a = c -> b = d -> a - b = c - d. Proof. intros -> ->. reflexivity. Qed.
Lemma dominant n M m b : 0 <= b -> (forall i, (i < n)%nat -> m <= M i i) ->
  (forall i j, (i < n)%nat -> (j < n)%nat -> i <> j -> Rabs (M i j) <= b) -> INR n * b < m -> pos_def n M.
Proof.
  intros Hb Hd Ho Hm. apply pos_def_of. intros x Hx. pose proof (sum_squares_pos n x Hx) as Hp.
  apply Rlt_le_trans with ((m - INR n * b) * rsum n (fun i => x i * x i)).
  { apply Rmult_lt_0_compat; lra. }
  apply Rle_trans with (rsum n (fun i => rsum n (fun j => delta i j * (m * (x i * x i)) - b * ((x i * x i + x j * x j) / 2)))).
  - right. symmetry.
    transitivity (rsum n (fun i => m * (x i * x i) - b / 2 * (INR n * (x i * x i) + rsum n (fun j => x j * x j)))).
    + apply rsum_ext. intros i Hi. rewrite rsum_minus. rewrite rsum_delta_l by exact Hi. apply Rminus_eq_compat2; [reflexivity|].
      rewrite <- (rsum_const n (x i * x i)), <- rsum_plus, <- rsum_scal_l. apply rsum_ext. intros. field.
    + rewrite rsum_minus, !rsum_scal_l, rsum_plus, rsum_scal_l, rsum_const. field.
  - apply rsum_le. intros i Hi. unfold mvec. rewrite <- rsum_scal_l. apply rsum_le. intros j Hj.
    assert (S : forall u v, - (u * u + v * v) / 2 <= u * v <= (u * u + v * v) / 2) by (intros u v; pose proof (Rle_0_sqr (u - v)) as A; pose proof (Rle_0_sqr (u + v)) as C; unfold Rsqr in A, C; split; lra).
    unfold delta. destruct (Nat.eqb_spec i j) as [<-|Ne].
    + specialize (Hd i Hi). replace (x i * (M i i * x i)) with (M i i * (x i * x i)) by ring. assert (0 <= x i * x i) by nra. nra.
    + specialize (Ho i j Hi Hj Ne). specialize (S (x i) (x j)). replace (x i * (M i j * x j)) with (M i j * (x i * x j)) by ring.
      pose proof (Rabs_def2 (M i j) (b + 1)). assert (- b <= M i j <= b) by (unfold Rabs in Ho; destruct (Rcase_abs (M i j)); lra).
      set (u := x i * x j) in *. set (v := (x i * x i + x j * x j) / 2) in *. assert (- v <= u <= v) by (unfold v in *; lra). clearbody u v. nra.
Qed.
Lemma pos_def_weights n M M' w : (forall i, (i < n)%nat -> w i <> 0) -> (forall i j, (i < n)%nat -> (j < n)%nat -> M' i j = w i * w j * M i j) ->
  pos_def n M' -> pos_def n M.
Proof.
  intros Hw HM HP. apply pos_def_of. intros x (i & Hi & Hx).
  assert (K : 0 < rsum n (fun i => x i / w i * mvec n M' (fun j => x j / w j) i)).
  { apply (pos_def_quad n M' (fun j => x j / w j) HP). exists i. split; [exact Hi|]. intros E. apply Hx.
    replace (x i) with (x i / w i * w i) by (field; apply Hw; exact Hi). rewrite E. ring. }
  replace (rsum n (fun i => x i * mvec n M x i)) with (rsum n (fun i => x i / w i * mvec n M' (fun j => x j / w j) i)); [exact K|].
  apply rsum_ext. intros k Hk. unfold mvec. rewrite <- !rsum_scal_l. apply rsum_ext. intros j Hj. rewrite HM by assumption.
  field. split; apply Hw; assumption.
Qed.

(** ** Pair mobilities *)
Section PB.
Variables (r : vec) (s a0 a1 a2 c mu : R).
Hypothesis Hr : norm r = s.
Hypothesis Ht : tiny < s.
Hypothesis H0 : 0 < a0 <= s.
Hypothesis H1 : 0 < a1 <= s.
Hypothesis H2 : 0 < a2 <= s.
Hypothesis Hc : 0 <= c.
Let d : vec := fun t => r t / s.
Lemma s_pos : 0 < s. Proof. lra. Qed.
Lemma rd t : (t < 3)%nat -> r t = s * d t /\ B (d t) 1.
Proof.
  intros H. split; [unfold d; field; lra|]. unfold d, B. unfold Rdiv. rewrite Rabs_mult, Rabs_inv. rewrite (Rabs_right s) by lra.
  apply Rmult_le_reg_r with s; [lra|]. rewrite Rmult_assoc, Rinv_l by lra. rewrite Rmult_1_r, Rmult_1_l, <- Hr. unfold norm.
  rewrite <- (sqrt_Rsqr_abs (r t)). apply sqrt_le_1_alt. unfold Rsqr. idx3 H; nra.
Qed.
Lemma rdo t : (t < 3)%nat -> vopp r t = s * vopp d t /\ B (vopp d t) 1.
Proof. intros H. destruct (rd t H) as [A C]. unfold vopp. split; [rewrite A; ring|apply B_opp; exact C]. Qed.
Lemma l1 : tiny < Rabs (r 0%nat) + Rabs (r 1%nat) + Rabs (r 2%nat).
Proof. apply Rlt_le_trans with (1 := Ht). rewrite <- Hr. apply norm_le_L1. Qed.
Lemma l1o : tiny < Rabs (vopp r 0%nat) + Rabs (vopp r 1%nat) + Rabs (vopp r 2%nat).
Proof. unfold vopp. rewrite !Rabs_Ropp. apply l1. Qed.
Lemma pw k : 0 <= k -> k / s ^ 2 <= k / (s * a0) /\ k / s ^ 3 <= k / (s * a0 * a0).
Proof.
  intros Hk. pose proof s_pos.
  assert (s * a0 <= s ^ 2) by nra. assert (s * a0 * a0 <= s ^ 3) by nra.
  split; unfold Rdiv; apply Rmult_le_compat_l; try exact Hk; apply Rinv_le_contravar; try assumption; repeat apply Rmult_lt_0_compat; lra.
Qed.
Theorem b_pmob k1 k2 i j : (i < ksize k1)%nat -> (j < ksize k2)%nat ->
  B (pmob k1 k2 r s a1 a2 c mu i j) (c * (472 / (s * kw a0 k1 * kw a0 k2))).
Proof.
  intros Hi Hj. pose proof s_pos as SP.
  assert (Q0 : forall k, 0 <= k -> 0 <= k / s ^ 2 /\ 0 <= k / s ^ 3).
  { intros k Hk. split; apply (q_pos s SP); exact Hk. }
  assert (W1 : c * (5 / s) <= c * (472 / (s * 1 * 1))).
  { apply Rmult_le_compat_l; [exact Hc|]. rewrite !Rmult_1_r. unfold Rdiv. apply Rmult_le_compat_r; [left; apply Rinv_0_lt_compat; lra|lra]. }
  assert (W2 : forall k, 0 <= k <= 472 -> c * (k / s ^ 2) <= c * (472 / (s * a0 * 1)) /\ c * (k / s ^ 2) <= c * (472 / (s * 1 * a0))).
  { intros k Hk. rewrite !Rmult_1_r. assert (c * (k / s ^ 2) <= c * (472 / (s * a0))); [|split; assumption].
    apply Rmult_le_compat_l; [exact Hc|]. apply Rle_trans with (472 / s ^ 2); [|apply pw; lra].
    unfold Rdiv. apply Rmult_le_compat_r; [left; apply (ip s SP 2)|lra]. }
  assert (W3 : forall k, 0 <= k <= 472 -> c * (k / s ^ 3) <= c * (472 / (s * a0 * a0))).
  { intros k Hk. apply Rmult_le_compat_l; [exact Hc|]. apply Rle_trans with (472 / s ^ 3); [|apply pw; lra].
    unfold Rdiv. apply Rmult_le_compat_r; [left; apply (ip s SP 3)|lra]. }
  assert (P : forall k n, 0 <= k -> 0 <= c * (k / s ^ n)) by (intros k n Hk; apply Rmult_le_pos; [exact Hc|apply (q_pos s SP); exact Hk]).
  assert (C2 : forall f m, (forall u v, (u < 3)%nat -> (v < 3)%nat -> B (f u v) (c * (19 / s ^ 2))) -> B (condense_idx f m) (c * (38 / s ^ 2))).
  { intros f m Hf. eapply B_le; [apply (b_cond f m (c * (19 / s ^ 2))); [apply P; lra|exact Hf]|]. lra. }
  assert (C3 : forall f m, (forall u v, (u < 3)%nat -> (v < 3)%nat -> B (f u v) (c * (104 / s ^ 3))) -> B (condense_idx f m) (c * (208 / s ^ 3))).
  { intros f m Hf. eapply B_le; [apply (b_cond f m (c * (104 / s ^ 3))); [apply P; lra|exact Hf]|]. lra. }
  destruct k1, k2; cbn [pmob kw ksize] in *;
    try (eapply B_le; [apply (b_M11 r d s); try assumption; apply rd|exact W1]);
    try (eapply B_le; [apply (b_M12 r d s); try assumption; apply rd|apply W2; lra]);
    try (eapply B_le; [apply (b_M12 (vopp r) (vopp d) s); try assumption; apply rdo|apply W2; lra]);
    try (eapply B_le; [apply C2; intros u v Hu Hv; apply (b_M13 r d s); try assumption; apply rd|apply W2; lra]);
    try (eapply B_le; [apply C2; intros u v Hu Hv; apply (b_M13 (vopp r) (vopp d) s); try assumption; apply rdo|apply W2; lra]).
  - eapply B_le; [apply (b_M22 r d s); try assumption; try apply rd; apply l1|apply W3; lra].
  - eapply B_le; [apply C3; intros u v Hu Hv; apply (b_M23 r d s); try assumption; try apply rd; apply l1|apply W3; lra].
  - eapply B_le; [apply C3; intros u v Hu Hv; apply (b_M23 (vopp r) (vopp d) s); try assumption; try apply rdo; apply l1o|apply W3; lra].
  - destruct (Rlt_dec tiny s); [|contradiction]. apply B_le with (2 * (2 * (c * (118 / s ^ 3)))).
    + apply b_cond; [specialize (P 118 3%nat); lra|]. intros u v Hu Hv. apply b_cond; [apply P; lra|].
      intros u' v' Hu' Hv'. apply (b_M33 r d s); try assumption. apply rd.
    + replace (2 * (2 * (c * (118 / s ^ 3)))) with (c * (472 / s ^ 3)) by (unfold Rdiv; ring). apply W3; lra.
Qed.
End PB.
