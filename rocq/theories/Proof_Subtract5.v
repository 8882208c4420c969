(** The scalars read out of the near field of the normal pair are those of the
    table; isolated pairs. *)
From Coq Require Import Reals Arith Bool List Lia Lra FunctionalExtensionality.
From Verif Require Import Base Py Model_Pack Model_Mob Model_Layout Model_Minf Model_Grand Model_GrandP Model_L Model_Close Model_R2B Model_Subtract
  Spec_Layout Spec_Minf Spec_R2B Spec_Close Spec_Subtract
  Proof_Layout Proof_Minf Proof_Minf2 Proof_Minf3 Proof_Minf4 Proof_R2B Proof_R2B2 Proof_R2B3 Proof_R2B4 Proof_Close Proof_Interp
  Proof_GrandP Proof_Rotate2 Proof_Rotate3 Proof_Axi1 Proof_Axi2 Proof_Axi3 Proof_Subtract1 Proof_Subtract2 Proof_Subtract3 Proof_Subtract4.
Import ListNotations.
Local Open Scope R_scope.

Section RoundTrip.
Variables (sc : nat -> nat -> R -> nat -> R) (table : list R) (bb : bool) (lam s cf : R) (G : mat).
Hypothesis Hl : 0 < lam. Hypothesis Hs : 0 < s. Hypothesis Hcf : s < 2 * cf.
Let p := pair_posdata lam s.
Let x := bead_positions p.
Let a := bead_sizes p.
Hypothesis HG : generate_R2Bexact_free sc table bb p cf 1 = Some G.

Lemma pair_norm : norm (vsub (x 1%nat) (x 0%nat)) = s * (1 + lam) * (1 / 2).
Proof.
  assert (0 < s * (1 + lam) * (1 / 2)) by (apply Rmult_lt_0_compat; [apply Rmult_lt_0_compat; lra|lra]).
  unfold norm, x, p, bead_positions, pair_posdata, vsub. cbn [num_spheres num_dumbbells sphere_positions Nat.ltb Nat.leb v3].
  match goal with |- sqrt ?z = ?w => replace z with (w ^ 2) by ring end. apply sqrt_pow2. lra.
Qed.
Lemma pair_scaled : scaled_distance x a 0 1 = s.
Proof.
  unfold scaled_distance. rewrite pair_norm. unfold a, p, bead_sizes, pair_posdata. cbn [num_spheres num_dumbbells sphere_sizes Nat.ltb Nat.leb]. field. lra.
Qed.
Lemma pair_direction : direction x 0 1 = ex.
Proof.
  unfold direction. rewrite pair_norm. assert (0 < s * (1 + lam) * (1 / 2)) by (apply Rmult_lt_0_compat; [apply Rmult_lt_0_compat; lra|lra]).
  apply functional_extensionality. intros i. unfold x, p, bead_positions, pair_posdata, vsub, vscal, ex. cbn [num_spheres num_dumbbells sphere_positions Nat.ltb Nat.leb].
  destruct i as [|[|[|i]]]; cbn [v3]; field; lra.
Qed.
Lemma near_pair k1 k2 q i j : (q < 2)%nat -> k1 <> KB -> k2 <> KB -> (mrank k2 <= mrank k1)%nat -> (i < ksize k1)%nat -> (j < ksize k2)%nat ->
  ent 2 G k1 0 k2 q i j = two_body (fun n => sc n q s (lam_ix table lam)) k1 k2 ex 1 i j.
Proof.
  intros Hq N1 N2 Hr Hi Hj.
  assert (Ha : forall b, (b < num_spheres p + 2 * num_dumbbells p)%nat -> 0 < bead_sizes p b).
  { intros [|[|b]] Hb; cbn in Hb |- *; unfold bead_sizes; cbn; lra || lia. }
  pose proof (sphere_near sc table bb p cf 1 G k1 0 k2 q i j ltac:(lra) Ha HG N1 N2 ltac:(cbn; lia) Hq Hi Hj ltac:(right; lia)) as E.
  change (num_spheres p) with 2%nat in E. rewrite E, Rmult_1_l. change (2 + 2 * num_dumbbells p)%nat with 2%nat. fold x a.
  assert (RR : a 1%nat / a 0%nat = lam) by (unfold a, p, bead_sizes, pair_posdata; cbn [num_spheres num_dumbbells sphere_sizes Nat.ltb Nat.leb]; field).
  assert (A0 : a 0%nat = 1) by reflexivity.
  unfold free_resistance. destruct q as [|[|q]]; [| |lia]; cbn [Nat.eqb].
  - unfold rsum. cbn [Nat.eqb negb andb]. rewrite pair_scaled, pair_direction. destruct (Rlt_dec _ _) as [_|H]; [|lra].
    unfold self_block. rewrite RR, A0. destruct (Nat.leb_spec (mrank k2) (mrank k1)); [ring|lia].
  - rewrite pair_scaled, pair_direction. destruct (Rlt_dec _ _) as [_|H]; [|lra].
    unfold cross_block. rewrite RR, A0. destruct (Nat.leb_spec (mrank k2) (mrank k1)); [|lia]. destruct k1, k2; try congruence; destruct bb; reflexivity.
Qed.
Lemma G_flip r c : (r < 22)%nat -> (c < 22)%nat -> G r c = G c r.
Proof. intros Hr Hc. apply (gen_r2b_sym _ _ _ _ _ _ _ _ _ HG); assumption. Qed.

Theorem round_trip n g : (n < 11)%nat -> (g < 2)%nat -> extract G n g = sc n g s (lam_ix table lam).
Proof.
  intros Hn Hg. pose proof PI_nz as HP. pose proof s2_nz as H2. pose proof R_nz as HR.
  assert (U : forall i j, (i < 3)%nat -> (j < 3)%nat -> G i (3 * g + j)%nat = cUU (6 * PI * sc 0%nat g s (lam_ix table lam)) (6 * PI * sc 1%nat g s (lam_ix table lam)) i j).
  { intros i j Hi Hj. rewrite <- (two_UU (fun n => sc n g s (lam_ix table lam)) KU KU i j eq_refl eq_refl Hi Hj). apply (near_pair KU KU g i j); (congruence || assumption || (cbn; lia)). }
  assert (O : forall i j, (i < 3)%nat -> (j < 3)%nat -> G (6 + i)%nat (6 + 3 * g + j)%nat = cUU (8 * PI * sc 3%nat g s (lam_ix table lam)) (8 * PI * sc 4%nat g s (lam_ix table lam)) i j).
  { intros i j Hi Hj. rewrite <- (two_OO (fun n => sc n g s (lam_ix table lam)) i j Hi Hj). apply (near_pair KO KO g i j); (congruence || assumption || (cbn; lia)). }
  assert (OU : forall i j, (i < 3)%nat -> (j < 3)%nat -> G (3 * g + j)%nat (6 + i)%nat = cOU (4 * PI * sc 2%nat g s (lam_ix table lam)) i j).
  { intros i j Hi Hj. rewrite G_flip by lia. rewrite <- (two_OU (fun n => sc n g s (lam_ix table lam)) KU i j eq_refl Hi Hj). apply (near_pair KO KU g i j); (congruence || assumption || (cbn; lia)). }
  assert (SU : forall i j, (i < 5)%nat -> (j < 3)%nat -> G (3 * g + j)%nat (12 + i)%nat = cSU (4 * PI * ((sqrt 3 + 3) / 6) * sc 5%nat g s (lam_ix table lam)) (4 * PI * sqrt 2 * sc 6%nat g s (lam_ix table lam)) i j).
  { intros i j Hi Hj. rewrite G_flip by lia. rewrite <- (two_SU (fun n => sc n g s (lam_ix table lam)) KU i j eq_refl Hi Hj). apply (near_pair KS KU g i j); (congruence || assumption || (cbn; lia)). }
  assert (SO : forall i j, (i < 5)%nat -> (j < 3)%nat -> G (6 + 3 * g + j)%nat (12 + i)%nat = cSO (- (8 * PI * sqrt 2 * sc 7%nat g s (lam_ix table lam))) i j).
  { intros i j Hi Hj. rewrite G_flip by lia. rewrite <- (two_SO (fun n => sc n g s (lam_ix table lam)) i j Hi Hj). apply (near_pair KS KO g i j); (congruence || assumption || (cbn; lia)). }
  assert (SS : forall i j, (i < 5)%nat -> (j < 5)%nat -> G (12 + i)%nat (12 + 5 * g + j)%nat = cSS (20 / 3 * PI * sc 10%nat g s (lam_ix table lam)) (20 / 3 * PI * sc 9%nat g s (lam_ix table lam)) (20 / 3 * PI * ((sc 10%nat g s (lam_ix table lam) - sc 8%nat g s (lam_ix table lam)) / 4)) i j).
  { intros i j Hi Hj. rewrite <- (two_SS (fun n => sc n g s (lam_ix table lam)) i j Hi Hj). apply (near_pair KS KS g i j); (congruence || assumption || (cbn; lia)). }
  pose proof (U 0 0 ltac:(lia) ltac:(lia))%nat as E1. pose proof (U 1 1 ltac:(lia) ltac:(lia))%nat as E2.
  pose proof (O 0 0 ltac:(lia) ltac:(lia))%nat as E3. pose proof (O 1 1 ltac:(lia) ltac:(lia))%nat as E4.
  pose proof (OU 1 2 ltac:(lia) ltac:(lia))%nat as E5.
  pose proof (SU 0 0 ltac:(lia) ltac:(lia))%nat as E6. pose proof (SU 1 1 ltac:(lia) ltac:(lia))%nat as E7.
  pose proof (SO 3 1 ltac:(lia) ltac:(lia))%nat as E8.
  pose proof (SS 1 1 ltac:(lia) ltac:(lia))%nat as E9. pose proof (SS 4 4 ltac:(lia) ltac:(lia))%nat as E10. pose proof (SS 2 0 ltac:(lia) ltac:(lia))%nat as E11.
  cbn [cUU cOU cSU cSO cSS] in *.
  destruct g as [|[|g]]; [| |lia]; cbn [Nat.mul Nat.add] in *; destruct n as [|[|[|[|[|[|[|[|[|[|[|n]]]]]]]]]]]; try lia; unfold extract;
    rewrite ?E1, ?E2, ?E3, ?E4, ?E5, ?E6, ?E7, ?E8, ?E9, ?E10, ?E11; field; repeat split; assumption || lra.
Qed.
End RoundTrip.
