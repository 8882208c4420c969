(** Reciprocity of the near-field functions. *)
From Coq Require Import Reals List Arith ZArith Bool Lra Lia.
From Verif Require Import Base Model_Mob Model_Nearfield Spec_Scalars Spec_Nearfield Proof_Nearfield1 Proof_Nearfield2 Proof_Nearfield5
  Proof_Nearfield6 Proof_Nearfield7 Proof_Nearfield8.
Import ListNotations.
Local Open Scope R_scope.

Lemma lsum_rev (f : nat -> R) m : lsum f (seq 0 (S m)) = lsum (fun i => f (m - i)%nat) (seq 0 (S m)).
Proof.
  assert (P : forall (l : list nat) (g : nat -> R), lsum g (rev l) = lsum g l).
  { induction l as [|a l IH]; intros g; [reflexivity|]. cbn [rev]. rewrite lsum_app, IH. unfold lsum. cbn. ring. }
  rewrite <- (P (seq 0 (S m)) (fun i => f (m - i)%nat)).
  assert (E : forall m, map (fun i => (m - i)%nat) (rev (seq 0 (S m))) = seq 0 (S m)).
  { clear. intros m. apply (nth_ext _ _ 0%nat 0%nat).
    - rewrite map_length, rev_length. reflexivity.
    - intros i Hi. rewrite map_length, rev_length, seq_length in Hi.
      rewrite (nth_indep _ 0%nat ((fun i => (m - i)%nat) 0%nat)) by (rewrite map_length, rev_length, seq_length; exact Hi).
      rewrite map_nth, rev_nth by (rewrite seq_length; exact Hi). rewrite seq_length, !seq_nth by lia. lia. }
  rewrite <- (E m) at 1. unfold lsum. rewrite map_map. reflexivity.
Qed.
Lemma lsum_last (f : nat -> R) a m : lsum f (seq a (S m)) = lsum f (seq a m) + f (a + m)%nat.
Proof. rewrite seq_S, lsum_app. unfold lsum at 2. cbn. ring. Qed.

Section Diag.
Variables (P : nat -> Z -> Z -> R) (n : nat).
Hypothesis P_zero : forall p q, (p < 0 \/ q < 0)%Z -> P n p q = 0.
Hypothesis P_rev : forall p q, Z.odd (p + q) = true -> P n p q = P n (q - 1)%Z (p + 1)%Z.
Lemma diagonal_reverse k e l : Nat.odd k = true -> l <> 0 -> diagonal P n k e l = l ^ (k + 1 + 2 * e) * diagonal P n k e (/ l).
Proof.
  intros Hk Hl. unfold diagonal, range. replace (Z.to_nat (Z.of_nat k + 1 - 0)) with (S k) by lia. change (Z.to_nat 0) with 0%nat.
  assert (Ho : forall q, Z.odd (Z.of_nat k - Z.of_nat q + Z.of_nat q) = true).
  { intros q. replace (Z.of_nat k - Z.of_nat q + Z.of_nat q)%Z with (Z.of_nat k) by lia. apply Nat.odd_spec in Hk. destruct Hk as [m ->].
    apply Zodd_bool_iff. apply Zodd_ex_iff. exists (Z.of_nat m). lia. }
  assert (Ext : forall x, lsum (fun q => P n (Z.of_nat k - Z.of_nat q)%Z (Z.of_nat q) * x ^ (q + e)) (seq 0 (S k))
    = lsum (fun q => P n (Z.of_nat k - Z.of_nat q)%Z (Z.of_nat q) * x ^ (q + e)) (seq 0 (S (S k)))).
  { intros x. rewrite (lsum_last _ 0 (S k)), (P_zero (Z.of_nat k - Z.of_nat (0 + S k)) _) by lia. ring. }
  rewrite !Ext, <- lsum_mul_l. rewrite lsum_rev. apply lsum_ext. intros q Hq. apply in_seq in Hq.
  rewrite (P_rev (Z.of_nat k - Z.of_nat (S k - q)) _) by apply Ho.
  replace (Z.of_nat (S k - q) - 1)%Z with (Z.of_nat k - Z.of_nat q)%Z by lia.
  replace (Z.of_nat k - Z.of_nat (S k - q) + 1)%Z with (Z.of_nat q) by lia.
  replace (k + 1 + 2 * e)%nat with ((S k - q + e) + (q + e))%nat by lia.
  set (u := (S k - q + e)%nat). set (v := (q + e)%nat). rewrite pow_add, pow_inv. field. apply pow_nonzero. exact Hl.
Qed.
End Diag.

Lemma in_range2_odd m N : In m (range2 1 N) -> Nat.odd m = true.
Proof. unfold range2. intros H. apply in_map_iff in H. destruct H as (i & <- & _). apply Nat.odd_spec. exists i. lia. Qed.
Lemma odd_mod k : Nat.odd k = true -> (k mod 2 = 1)%nat.
Proof. intros H. apply Nat.odd_spec in H. destruct H as [m ->]. rewrite Nat.add_comm, Nat.mul_comm, Nat.mod_add by lia. reflexivity. Qed.

(** f0 with weight a *)
Definition weight (a : nat) (l : R) (f : R -> R) : Prop := f l = l ^ a * f (/ l).
Lemma sum_reverse f0 f1 f2 f3 a l N : 0 < l ->
  (forall m, Nat.odd m = true -> f0 m l = l ^ (m + a) * f0 m (/ l)) -> weight a l f1 -> weight a l f2 -> weight a l f3 ->
  intermediate_sum f0 f1 f2 f3 odd l N = l ^ a * intermediate_sum f0 f1 f2 f3 odd (/ l) N.
Proof.
  intros Hl H0 H1 H2 H3. unfold intermediate_sum. cbn [sumover]. rewrite <- lsum_mul_l. apply lsum_ext. intros m Hm.
  apply in_range2_odd in Hm. rewrite (H0 m Hm), H1, H2, H3.
  assert (E : (1 + / l) ^ m = (1 + l) ^ m * / l ^ m).
  { rewrite <- pow_inv, <- Rpow_mult_distr. f_equal. field. lra. }
  rewrite E, Rinv_mult, Rinv_inv, pow_add. ring.
Qed.

Ltac wt := unfold weight; unfold Zf, G1xa, G2xa, G3xa, G2ya, G3ya, G4yc, G5yc, G4xm, G5xm, G6xm, G5ym, G6ym, G3zm; field; repeat split; lra.
Lemma Fxa_rev k l : 0 < l -> Nat.odd k = true -> Fxa k l = l ^ (k + 1) * Fxa k (/ l).
Proof.
  intros Hl Hk. unfold Fxa. rewrite (diagonal_reverse Pxa 1 (fun p q => PX_zero (kron 1) 1 p q (le_n 1)) (fun p q => X_reversal 1 (le_n 1) p q) _ _ _ Hk (Rgt_not_eq _ _ Hl)).
  rewrite Nat.mul_0_r, Nat.add_0_r. ring.
Qed.
Lemma Fya_rev k l : 0 < l -> Nat.odd k = true -> Fya k l = l ^ (k + 1) * Fya k (/ l).
Proof.
  intros Hl Hk. unfold Fya. rewrite (diagonal_reverse Pya 1 (fun p q => PY_zero (kron 1) (fun _ => 0) 1 p q (le_n 1)) (fun p q => Y_reversal 1 (le_n 1) p q) _ _ _ Hk (Rgt_not_eq _ _ Hl)).
  rewrite Nat.mul_0_r, Nat.add_0_r. ring.
Qed.
Ltac dia k Hk := rewrite (odd_mod k Hk); replace (k + 1 + 2 * 1)%nat with (k + 3)%nat by lia; ring.
Lemma Fyc_rev k l : 0 < l -> Nat.odd k = true -> Fyc k l = l ^ (k + 3) * Fyc k (/ l).
Proof.
  intros Hl Hk. unfold Fyc. rewrite (diagonal_reverse Qyc 1 (fun p q => QY_zero (fun _ => 0) (kron 1) 1 p q (le_n 1)) (fun p q => YQ_reversal 1 (le_n 1) p q) _ _ _ Hk (Rgt_not_eq _ _ Hl)). dia k Hk.
Qed.
Lemma Fxm_rev k l : 0 < l -> Nat.odd k = true -> Fxm k l = l ^ (k + 3) * Fxm k (/ l).
Proof.
  intros Hl Hk. unfold Fxm. rewrite (diagonal_reverse Pxm 2 (fun p q => PX_zero (kron 2) 2 p q (le_S _ _ (le_n 1))) (fun p q => X_reversal 2 (le_S _ _ (le_n 1)) p q) _ _ _ Hk (Rgt_not_eq _ _ Hl)). dia k Hk.
Qed.
Lemma Fym_rev k l : 0 < l -> Nat.odd k = true -> Fym k l = l ^ (k + 3) * Fym k (/ l).
Proof.
  intros Hl Hk. unfold Fym. rewrite (diagonal_reverse Pym 2 (fun p q => PY_zero (kron 2) (fun _ => 0) 2 p q (le_S _ _ (le_n 1))) (fun p q => Y_reversal 2 (le_S _ _ (le_n 1)) p q) _ _ _ Hk (Rgt_not_eq _ _ Hl)). dia k Hk.
Qed.
Lemma Fzm_rev k l : 0 < l -> Nat.odd k = true -> Fzm k l = l ^ (k + 3) * Fzm k (/ l).
Proof.
  intros Hl Hk. unfold Fzm. rewrite (diagonal_reverse Pzm 2 (fun p q => PZM_zero 2 p q (le_S _ _ (le_n 1))) (fun p q => Z_reversal p q) _ _ _ Hk (Rgt_not_eq _ _ Hl)). dia k Hk.
Qed.
(** What the docstring of Fzm_with_sum_coeff says. *)
Lemma Fzm_coeff k l : 0 < l -> Fzm_with_sum_coeff k l = / 2 ^ k * / (1 + l) ^ k * Fzm k l.
Proof.
  intros Hl. unfold Fzm_with_sum_coeff, Fzm, diagonal.
  assert (N2 : 2 ^ k <> 0) by (apply pow_nonzero; lra). assert (N1 : (1 + l) ^ k <> 0) by (apply pow_nonzero; lra).
  rewrite <- !lsum_mul_l. apply lsum_ext. intros q Hq. in_rng.
  assert (Eq : (1 + l) ^ k = (1 + l) ^ q * (1 + l) ^ (k - q)) by (rewrite <- pow_add; f_equal; lia).
  rewrite Eq. unfold Rdiv. rewrite Rpow_mult_distr, pow_inv, pow_add.
  field. repeat split; try assumption; apply pow_nonzero; lra.
Qed.
Lemma Fzm_coeff_rev k l : 0 < l -> Nat.odd k = true -> Fzm_with_sum_coeff k l = l ^ 3 * Fzm_with_sum_coeff k (/ l).
Proof.
  intros Hl Hk. rewrite !Fzm_coeff by (try apply Rinv_0_lt_compat; exact Hl). rewrite (Fzm_rev k l Hl Hk).
  assert (E : (1 + / l) ^ k = (1 + l) ^ k * / l ^ k).
  { rewrite <- pow_inv, <- Rpow_mult_distr. f_equal. field. lra. }
  rewrite E, Rinv_mult, Rinv_inv, pow_add. ring.
Qed.
Lemma sum_reverse_z l N : 0 < l ->
  intermediate_sum_no_f0_coeff Fzm_with_sum_coeff Zf Zf G3zm odd l N = l ^ 3 * intermediate_sum_no_f0_coeff Fzm_with_sum_coeff Zf Zf G3zm odd (/ l) N.
Proof.
  intros Hl. unfold intermediate_sum_no_f0_coeff. cbn [sumover]. rewrite <- lsum_mul_l. apply lsum_ext. intros m Hm.
  apply in_range2_odd in Hm. rewrite (Fzm_coeff_rev m l Hl Hm). assert (W : weight 3 l G3zm) by wt. rewrite W. unfold Zf. ring.
Qed.

Ltac go := field; repeat split; lra.
Lemma near_reciprocal zeta n xi l : 0 < l -> reciprocal_family n ->
  near zeta n 1 xi l = l ^ radius_power n * near zeta n 1 xi (/ l).
Proof.
  intros Hl Hn. assert (Hi : 0 < / l) by (apply Rinv_0_lt_compat; exact Hl).
  destruct Hn as [->|[->|[->|[->|[->|[->| ->]]]]]]; cbn [near radius_power]; cbv zeta.
  - pose proof (sum_reverse Fxa G1xa G2xa G3xa 1 l 100 Hl (fun m => Fxa_rev m l Hl) ltac:(wt) ltac:(wt) ltac:(wt)) as E.
    unfold X12A, AX12. rewrite E. cbv zeta. set (u := intermediate_sum _ _ _ _ _ _ _).
    unfold G1xa, G2xa, G3xa. set (L := ln (/ xi)). set (x := / xi). set (L2 := ln 2). go.
  - pose proof (sum_reverse Fya Zf G2ya G3ya 1 l 100 Hl (fun m => Fya_rev m l Hl) ltac:(wt) ltac:(wt) ltac:(wt)) as E.
    unfold Y12A, AY12. cbv zeta. rewrite E. set (u := intermediate_sum _ _ _ _ _ _ _).
    unfold G2ya, G3ya. set (L := ln (/ xi)). set (L2 := ln 2).
    unfold Rdiv. set (k1 := / INR (100 - 1)). set (k2 := / INR (100 + 1)). go.
  - unfold X12C. cbv zeta. set (L := ln (/ xi)). set (z := zeta 3 1). go.
  - pose proof (sum_reverse Fyc Zf G4yc G5yc 3 l 100 Hl (fun m => Fyc_rev m l Hl) ltac:(wt) ltac:(wt) ltac:(wt)) as E.
    unfold Y12C, CY12. cbv zeta. rewrite E. set (u := intermediate_sum _ _ _ _ _ _ _).
    unfold G4yc, G5yc. set (L := ln (/ xi)). set (L2 := ln 2). go.
  - pose proof (sum_reverse Fxm G4xm G5xm G6xm 3 l 100 Hl (fun m => Fxm_rev m l Hl) ltac:(wt) ltac:(wt) ltac:(wt)) as E.
    unfold X12M, MX12. cbv zeta. rewrite E. set (u := intermediate_sum _ _ _ _ _ _ _).
    unfold G4xm, G5xm, G6xm. set (L := ln (/ xi)). set (L2 := ln 2). set (x := / xi). go.
  - pose proof (sum_reverse Fym Zf G5ym G6ym 3 l 130 Hl (fun m => Fym_rev m l Hl) ltac:(wt) ltac:(wt) ltac:(wt)) as E.
    unfold Y12M, MY12. cbv zeta. rewrite E. set (u := intermediate_sum _ _ _ _ _ _ _).
    unfold G5ym, G6ym. set (L := ln (/ xi)). set (L2 := ln 2). go.
  - unfold Z12M, MZ12. cbv zeta. rewrite sum_reverse_z by exact Hl. set (u := intermediate_sum_no_f0_coeff _ _ _ _ _ _ _).
    unfold G3zm. set (L := ln (/ xi)). go.
Qed.

(** The scalars of a pair: those of the second sphere are those of the first. *)
Lemma pair_symmetric zeta a b xi n : 0 < a -> 0 < b -> reciprocal_family n ->
  scalar (pair_scalars zeta a b xi) n 0 1 = scalar (pair_scalars zeta a b xi) n 1 0.
Proof.
  intros Ha Hb Hn. assert (Hl : 0 < b / a) by (apply Rmult_lt_0_compat; [exact Hb|apply Rinv_0_lt_compat; exact Ha]).
  pose proof (near_reciprocal zeta n xi (b / a) Hl Hn) as E.
  assert (Ei : / (b / a) = a / b) by (field; lra). rewrite Ei in E.
  destruct Hn as [->|[->|[->|[->|[->|[->| ->]]]]]];
    cbn [scalar pair_scalars scalar_unit odd_in_d Nat.mul Nat.add Nat.div Nat.modulo Nat.divmod fst snd Nat.sub];
    cbn [radius_power] in E; rewrite E; field; lra.
Qed.
