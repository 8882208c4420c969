(** The drift of the pair in runs. *)
From Coq Require Import Reals List Arith ZArith Bool Lia Lra Psatz.
From Verif Require Import Base Py Model_Pack Model_Mob Model_Layout Model_Minf Model_Grand Model_Close Model_R2B Model_GrandP Model_Step
  Model_Output Model_Frame Model_Inputs Model_Sim
  Spec_Pack Spec_Convert Spec_Output Spec_Layout Spec_Minf Spec_Rotate Spec_Close Spec_R2B Spec_Step Spec_Frame Spec_Posdef Spec_Run Spec_Run4
  Spec_Turn Spec_Turn4 Spec_Renumber Spec_Work Spec_Pair Spec_Two Spec_Drift
  Proof_Posdef Proof_Frame Proof_Run Proof_Run2 Proof_Run4 Proof_Output3 Proof_Runs2 Proof_Turn1 Proof_Turn2 Proof_Turn3 Proof_Renumber1 Proof_Work Proof_Work2 Proof_Work3 Proof_Pair
  Proof_Pair2 Proof_Two3 Proof_Two5 Proof_Drift1.
From Verif Require Proof_Minf.
Import ListNotations.
Local Open Scope R_scope.

(** Only the difference of the positions matters. *)
Lemma drift_shift a mu x1 x2 y1 y2 F l : (forall k, (k < 3)%nat -> x2 k - x1 k = y2 k - y1 k) -> (l < 3)%nat ->
  drift a mu x1 x2 F l = drift a mu y1 y2 F l.
Proof.
  intros H Hl.
  assert (N : norm (vsub x2 x1) = norm (vsub y2 y1)) by (unfold norm, vsub; rewrite !H by lia; reflexivity).
  assert (N' : norm (vsub x1 x2) = norm (vsub y1 y2)).
  { assert (S : forall z1 z2 : vec, norm (vsub z1 z2) = norm (vsub z2 z1)) by (intros; unfold norm, vsub; f_equal; ring). rewrite (S x1 x2), (S y1 y2). exact N. }
  assert (T : forall k, (k < 3)%nat -> towards x1 x2 k = towards y1 y2 k) by (intros k Hk; unfold towards; rewrite N, H by exact Hk; reflexivity).
  unfold drift, used_separation. rewrite N'. unfold dot3. rewrite !T by lia. reflexivity.
Qed.
Lemma stresslet_shift a x1 x2 y1 y2 F k l : (forall k, (k < 3)%nat -> x2 k - x1 k = y2 k - y1 k) -> (k < 3)%nat -> (l < 3)%nat ->
  pair_stresslet a x1 x2 F k l = pair_stresslet a y1 y2 F k l.
Proof.
  intros H Hk Hl.
  assert (N : norm (vsub x2 x1) = norm (vsub y2 y1)) by (unfold norm, vsub; rewrite !H by lia; reflexivity).
  assert (N' : norm (vsub x1 x2) = norm (vsub y1 y2)).
  { assert (S : forall z1 z2 : vec, norm (vsub z1 z2) = norm (vsub z2 z1)) by (intros; unfold norm, vsub; f_equal; ring). rewrite (S x1 x2), (S y1 y2). exact N. }
  assert (T : forall k, (k < 3)%nat -> towards x1 x2 k = towards y1 y2 k) by (intros m Hm; unfold towards; rewrite N, H by exact Hm; reflexivity).
  unfold pair_stresslet, used_separation. rewrite N'. unfold dot3. rewrite !T by lia. reflexivity.
Qed.

Section Run.
Variable sc : nat -> nat -> R -> nat -> R.
Variable table : list R.
Variable fm : form.
Variables bb mo : bool.
Variable cf : R.
Variable input : config -> R -> res (inputs * flow).
Variable p0 : config.
Variable mu : R.
Variable F : list R.
Variable g : settings.
Hypothesis Hcf : 0 < cf.
Hypothesis HI : pulled_alike fm mu F input.
Hypothesis Hsz : c_ssizes p0 0%nat = c_ssizes p0 1%nat.
Hypothesis Hmu : 0 < mu.
Hypothesis Ha : 0 < c_ssizes p0 0%nat.
Hypothesis Hx : / 10 ^ 8 < norm (vsub (c_spos p0 1%nat) (c_spos p0 0%nat)).
Hypothesis Hsep : mo = true \/ 2 * cf * c_ssizes p0 0%nat <= norm (vsub (c_spos p0 1%nat) (c_spos p0 0%nat)).
Hypothesis Hd : g_use_drag g = false.
Hypothesis Hstart : g_start g = 0%nat.

Theorem solved_both f o : solved_pair sc table fm bb mo cf g input p0 mu f o ->
  (forall l, (l < 3)%nat -> rowof (oUa o) 0%nat l = drift (c_ssizes p0 0%nat) mu (c_spos p0 0%nat) (c_spos p0 1%nat) (fun k => nth k F 0) l) /\
  (forall k l, (k < 3)%nat -> (l < 3)%nat -> matof (oSa o) 0%nat k l = pair_stresslet (c_ssizes p0 0%nat) (c_spos p0 0%nat) (c_spos p0 1%nat) (fun k => nth k F 0) k l).
Proof.
  intros SV.
  pose proof (fun a b Ha Hb => proj2 (all_stresslets sc table fm bb mo cf g input p0 mu F Hcf Hstart HI Hsz f o f o a b SV SV Ha Hb)) as OP.
  destruct SV as (i & q & t & L & N0 & EI & FP & NP & PD & HA).
  destruct (HI q t i f EI) as (FO & UB & Mu & IF & IM).
  assert (AL : alike fm F i f) by (split; [exact FO|split; assumption]).
  unfold far_pair in FP. rewrite Hd in FP. destruct FP as (p & PR & DP & IV).
  pose proof (nearp_zero sc table bb mo cf p0 mu Hcf Hsz Ha Hsep g Hstart N0 NP) as NZ.
  assert (Nf : fm <> fts) by exact (alike_fm fm F i f AL).
  pose proof (quiet_answers 2 0 fm i f (madd L N0) o Nf FO HA) as Q.
  pose proof (alike_forces fm F i f (madd L N0) o 0%nat AL HA ltac:(lia)) as F0.
  pose proof (alike_forces fm F i f (madd L N0) o 1%nat AL HA ltac:(lia)) as F1.
  destruct HA as ((L1 & L2 & L3) & (H1 & H2 & H3 & H4 & H5 & H6 & H7 & H8 & H9 & H10 & H11) & _).
  assert (ST : shaped_st 2 (oSa o)) by (destruct fm; try contradiction; exact H11).
  set (u := lvec (grand (oUa o) (oOa o) (oEa o) (oUb o) (oHDb o))) in *.
  set (w := lvec (grand (oFa o) (o_Ta o) (oSa o) (oFb o) (oDFb o))) in *.
  set (M := generate_Minfinity bb (posdata_of 2 0 p) mu) in *.
  assert (GU : forall k b c, kvalid 2 0 k b -> (c < ksize k)%nat -> u (kstart 2 k b + c)%nat = blk (oUa o) (oOa o) (oEa o) (oUb o) (oHDb o) 2 0 k b c).
  { intros k b c Hk Hc. apply grand_at; try assumption. apply H10. }
  assert (GF : forall k b c, kvalid 2 0 k b -> (c < ksize k)%nat -> w (kstart 2 k b + c)%nat = blk (oFa o) (o_Ta o) (oSa o) (oFb o) (oDFb o) 2 0 k b c).
  { intros k b c Hk Hc. apply grand_at; try assumption. apply H9. }
  assert (LM : linrel 22 M w u).
  { pose proof (is_inv_mvec 22 M L w u IV) as [_ I]. intros r Hr. apply I; [|exact Hr]. intros k Hk. rewrite (L3 k Hk). apply rsum_ext. intros c Hc. unfold madd. rewrite (NZ k c Hk Hc). ring. }
  pose proof (paired_sizes p0 Hsz Ha p PR) as PS. pose proof (paired_apart p0 Hx p PR) as PA.
  pose proof PR as (Z1 & Z2 & Z3).
  assert (S0 : bead_sizes (posdata_of 2 0 p) 0%nat = c_ssizes p0 0%nat) by (unfold bead_sizes, posdata_of; cbn [num_spheres num_dumbbells sphere_sizes Nat.ltb Nat.leb]; rewrite Z1; reflexivity).
  assert (S1 : bead_sizes (posdata_of 2 0 p) 1%nat = c_ssizes p0 0%nat) by (unfold bead_sizes, posdata_of; cbn [num_spheres num_dumbbells sphere_sizes Nat.ltb Nat.leb]; rewrite Z1, Hsz; reflexivity).
  destruct (to_axis (fst (pair_geometry (bead_positions (posdata_of 2 0 p) 0%nat) (bead_positions (posdata_of 2 0 p) 1%nat) (bead_sizes (posdata_of 2 0 p) 0%nat) (bead_sizes (posdata_of 2 0 p) 0%nat))))
    as (Qt & HQ & EQ).
  assert (X1 : forall b k, (b < 2)%nat -> (k < 3)%nat -> w (3 * b + k)%nat = nth k F 0).
  { intros b k Hb Hk. pose proof (GF KU b k Hb Hk) as G. cbn [kstart blk] in G. rewrite G. unfold rowof.
    assert (C : (b = 0 \/ b = 1)%nat) by lia. destruct C as [-> | ->]; [rewrite F0|rewrite F1]; reflexivity. }
  assert (X2 : forall k, (k < 3)%nat -> w (9 + k)%nat = 0).
  { intros k Hk. pose proof (GF KO 1%nat k ltac:(cbn; lia) Hk) as G. cbn [kstart blk] in G. change (9 + k)%nat with (3 * 2 + 3 * 1 + k)%nat. rewrite G.
    unfold rowof. rewrite (proj1 Q (nth 1 (o_Ta o) [])) by (apply nth_In; destruct H2; lia). unfold zeros3. idx3 Hk; reflexivity. }
  assert (X3 : forall k, (k < 5)%nat -> w (17 + k)%nat = - w (12 + k)%nat).
  { intros k Hk. pose proof (GF KS 1%nat k ltac:(cbn; lia) Hk) as G. pose proof (GF KS 0%nat k ltac:(cbn; lia) Hk) as G'. cbn [kstart blk] in G, G'.
    change (17 + k)%nat with (6 * 2 + 5 * 1 + k)%nat. change (12 + k)%nat with (6 * 2 + 5 * 0 + k)%nat. rewrite G, G'.
    rewrite <- condense_neg by exact Hk. apply Proof_Minf.condense_ext. intros a b Ha' Hb. exact (OP a b Ha' Hb). }
  assert (X4 : forall k, (k < 5)%nat -> u (12 + k)%nat = 0).
  { intros k Hk. pose proof (GU KS 0%nat k ltac:(cbn; lia) Hk) as G. cbn [kstart blk] in G. change (12 + k)%nat with (6 * 2 + 5 * 0 + k)%nat. rewrite G.
    apply rsum_zero. intros a Ha'. apply rsum_zero. intros b Hb.
    unfold matof. rewrite (proj2 Q (nth 0 (oEa o) [])) by (apply nth_In; destruct H10; lia).
    unfold zeros33, zeros3. idx3 Ha'; idx3 Hb; cbn [nth]; ring. }
  assert (DX : forall k, (k < 3)%nat -> bead_positions (posdata_of 2 0 p) 1%nat k - bead_positions (posdata_of 2 0 p) 0%nat k = c_spos p0 1%nat k - c_spos p0 0%nat k).
  { intros k Hk. cbn [posdata_of bead_positions num_spheres num_dumbbells sphere_positions Nat.ltb Nat.leb]. rewrite (Z3 k Hk). reflexivity. }
  pose proof (PA 0%nat 1%nat ltac:(lia) ltac:(lia) ltac:(lia)) as PA'. assert (S1' : bead_sizes (posdata_of 2 0 p) 1%nat = bead_sizes (posdata_of 2 0 p) 0%nat) by (rewrite S0; exact S1).
  assert (Ha' : 0 < bead_sizes (posdata_of 2 0 p) 0%nat) by (rewrite S0; exact Ha).
  split.
  - intros l Hl. pose proof (solved_drift bb (posdata_of 2 0 p) mu eq_refl eq_refl Hmu Ha' S1' PA' Qt HQ EQ w u (fun k => nth k F 0) LM X1 X2 X3 X4 l Hl) as D.
    rewrite S0 in D. pose proof (GU KU 0%nat l ltac:(cbn; lia) Hl) as G0. cbn [kstart blk Nat.mul Nat.add] in G0. rewrite <- G0. rewrite D. apply drift_shift; assumption.
  - intros k l Hk Hl. pose proof (solved_stresslet bb (posdata_of 2 0 p) mu eq_refl eq_refl Hmu Ha' S1' PA' Qt HQ EQ w u (fun k => nth k F 0) LM X1 X2 X3 X4 (matof (oSa o) 0%nat)) as D.
    rewrite D; [rewrite S0; apply stresslet_shift; assumption| | |exact Hk|exact Hl].
    + apply (matof_st 2); [exact ST|lia].
    + intros m Hm. pose proof (GF KS 0%nat m ltac:(cbn; lia) Hm) as G. cbn [kstart blk] in G. exact G.
Qed.
Theorem solved_velocity f o l : solved_pair sc table fm bb mo cf g input p0 mu f o -> (l < 3)%nat ->
  rowof (oUa o) 0%nat l = drift (c_ssizes p0 0%nat) mu (c_spos p0 0%nat) (c_spos p0 1%nat) (fun k => nth k F 0) l.
Proof. intros SV. exact (proj1 (solved_both f o SV) l). Qed.
End Run.

(** Sizes of the gains. *)
Section Gains.
Variable u : R.
Hypothesis Hu : 0 < u <= 1 / 2.
Let y := u * u.
Lemma y14 : 0 < y <= 1 / 4. Proof. unfold y. split; [apply Rmult_lt_0_compat; lra|]. replace (1 / 4) with (1 / 2 * (1 / 2)) by field. apply Rmult_le_compat; lra. Qed.
Let D1 := 1 + 5 * u ^ 3 - 12 * u ^ 5.
Let D2 := 1 - 5 / 2 * u ^ 3 + 8 * u ^ 5.
Lemma D1_big : 1 <= D1.
Proof. pose proof y14. unfold D1. replace (1 + 5 * u ^ 3 - 12 * u ^ 5) with (1 + u * y * (5 - 12 * y)) by (unfold y; ring). assert (0 <= u * y * (5 - 12 * y)) by (repeat apply Rmult_le_pos; lra). lra. Qed.
Lemma D2_big : 5 / 8 <= D2.
Proof.
  pose proof y14. unfold D2. replace (1 - 5 / 2 * u ^ 3 + 8 * u ^ 5) with (1 - 5 / 2 * (u * y) + 8 * (u * y * y)) by (unfold y; ring).
  assert (u * y <= 1 / 2 * (1 / 4)) by (apply Rmult_le_compat; lra). assert (0 <= u * y * y) by (repeat apply Rmult_le_pos; lra). lra.
Qed.
Lemma frac_bound a D k : 0 <= a -> 0 < k -> k <= D -> 0 <= a / D <= a / k.
Proof.
  intros A K L. split; [apply Rmult_le_pos; [exact A|left; apply Rinv_0_lt_compat; lra]|]. apply Rmult_le_compat_l; [exact A|]. apply Rinv_le_contravar; lra.
Qed.
Lemma bump : y * (1 - 8 / 5 * y) ^ 2 <= 1 / 10.
Proof. pose proof y14. assert (0 <= (y - 5 / 24) ^ 2) by apply pow2_ge_0. nra. Qed.
Lemma along_bounds : 1 + u <= along_gain u <= 1 + 3 / 2 * u.
Proof.
  pose proof y14 as Y. pose proof bump as B. unfold along_gain. fold D1.
  set (n := 15 / 4 * u ^ 4 * (1 - 8 / 5 * u ^ 2) ^ 2).
  assert (En : n = 15 / 4 * (y * (y * (1 - 8 / 5 * y) ^ 2))) by (unfold n, y; ring).
  assert (P : 0 <= y * (1 - 8 / 5 * y) ^ 2) by (apply Rmult_le_pos; [lra|apply pow2_ge_0]).
  assert (N0 : 0 <= n) by (rewrite En; apply Rmult_le_pos; [lra|]; apply Rmult_le_pos; lra).
  assert (N1 : n <= 15 / 4 * (y * (1 / 10))) by (rewrite En; apply Rmult_le_compat_l; [lra|]; apply Rmult_le_compat_l; lra).
  destruct (frac_bound n D1 1 N0 ltac:(lra) D1_big) as [Q1 Q2]. replace (n / 1) with n in Q2 by field.
  assert (U3 : u ^ 3 = u * y) by (unfold y; ring). assert (UY : 0 <= u * y <= u * (1 / 4)) by (split; [apply Rmult_le_pos; lra|apply Rmult_le_compat_l; lra]).
  assert (Y2 : y <= u * (1 / 2)) by (unfold y; apply Rmult_le_compat_l; lra). rewrite U3.
  lra.
Qed.
Lemma across_bounds : 1 + 3 / 4 * u <= across_gain u <= 1 + 3 / 4 * u + 1 / 2 * u ^ 3.
Proof.
  pose proof y14 as Y. unfold across_gain. fold D2. set (n := 16 / 5 * u ^ 8).
  assert (En : n = 16 / 5 * (u * y * (u * y * y))) by (unfold n, y; ring).
  assert (UY : 0 <= u * y) by (apply Rmult_le_pos; lra). assert (UY2 : 0 <= u * y * y) by (apply Rmult_le_pos; lra).
  assert (UY3 : u * y * y <= 1 / 2 * (1 / 4) * (1 / 4)) by (apply Rmult_le_compat; try lra; apply Rmult_le_compat; lra).
  assert (N0 : 0 <= n) by (rewrite En; apply Rmult_le_pos; [lra|]; apply Rmult_le_pos; lra).
  assert (N1 : n <= 16 / 5 * (u * y * (1 / 32))) by (rewrite En; apply Rmult_le_compat_l; [lra|]; apply Rmult_le_compat_l; lra).
  destruct (frac_bound n D2 (5 / 8) N0 ltac:(lra) D2_big) as [Q1 Q2].
  assert (U3 : u ^ 3 = u * y) by (unfold y; ring). rewrite U3. lra.
Qed.
Lemma gains_ordered : across_gain u < along_gain u.
Proof.
  pose proof y14 as Y. pose proof across_bounds as [_ A]. pose proof bump as B. apply Rle_lt_trans with (1 := A). unfold along_gain. fold D1.
  set (n := 15 / 4 * u ^ 4 * (1 - 8 / 5 * u ^ 2) ^ 2).
  assert (En : n = 15 / 4 * (y * (y * (1 - 8 / 5 * y) ^ 2))) by (unfold n, y; ring).
  assert (P : 0 <= y * (1 - 8 / 5 * y) ^ 2) by (apply Rmult_le_pos; [lra|apply pow2_ge_0]).
  assert (N0 : 0 <= n) by (rewrite En; apply Rmult_le_pos; [lra|]; apply Rmult_le_pos; lra).
  assert (N1 : n <= 15 / 4 * (y * (1 / 10))) by (rewrite En; apply Rmult_le_compat_l; [lra|]; apply Rmult_le_compat_l; lra).
  destruct (frac_bound n D1 1 N0 ltac:(lra) D1_big) as [Q1 Q2]. replace (n / 1) with n in Q2 by field.
  assert (U3 : u ^ 3 = u * y) by (unfold y; ring). assert (UY : 0 <= u * y <= u * (1 / 4)) by (split; [apply Rmult_le_pos; lra|apply Rmult_le_compat_l; lra]).
  assert (Y2 : y <= u * (1 / 2)) by (unfold y; apply Rmult_le_compat_l; lra). rewrite U3.
  lra.
Qed.
End Gains.
