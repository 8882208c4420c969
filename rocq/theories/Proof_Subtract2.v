(** Resistance of any two spheres in terms of the extracted scalars. *)
From Coq Require Import Reals Arith Bool List Lia Lra FunctionalExtensionality.
From Verif Require Import Base Model_Pack Model_Mob Model_Layout Model_Minf Model_Grand Model_Subtract
  Spec_Layout Spec_Minf Spec_R2B Spec_Rotate Spec_Rescale Spec_Subtract
  Proof_Layout Proof_Minf Proof_Minf2 Proof_Minf3 Proof_Minf4
  Proof_Rotate1 Proof_Rotate2 Proof_Rotate3 Proof_Rotate4 Proof_Rotate5 Proof_Rotate6 Proof_Rotate8 Proof_Rotate9
  Proof_Rescale1 Proof_Rescale2 Proof_Axi1 Proof_Axi2 Proof_Axi3 Proof_GrandP Proof_Subtract1.
Import ListNotations.
Local Open Scope R_scope.

Lemma inv_mu n M M' J k : k <> 0 -> is_inv n M J -> (forall r c, (r < n)%nat -> (c < n)%nat -> M' r c = / k * M r c) ->
  is_inv n M' (fun r c => k * J r c).
Proof.
  intros Hk HI HM. refine (is_inv_ext n _ _ _ _ _ (fun _ _ _ _ => eq_refl) (is_inv_scal n _ _ k Hk HI)).
  intros r c Hr Hc. symmetry. apply HM; assumption.
Qed.
Lemma rotv Q u : rot Q (v3 u 0 0) = vscal u (rot Q ex).
Proof. apply functional_extensionality. intros i. unfold rot, mvec, rsum, vscal, ex. cbn [v3]. ring. Qed.
Lemma bead_pos2 p b : num_spheres p = 2%nat -> (b < 2)%nat -> bead_positions p b = sphere_positions p b.
Proof. intros N Hb. unfold bead_positions. rewrite N. destruct (Nat.ltb_spec b 2); [reflexivity|lia]. Qed.
Lemma bead_size2 p b : num_spheres p = 2%nat -> (b < 2)%nat -> bead_sizes p b = sphere_sizes p b.
Proof. intros N Hb. unfold bead_sizes. rewrite N. destruct (Nat.ltb_spec b 2); [reflexivity|lia]. Qed.
Lemma norm_along d u x : sq d = 1 -> 0 <= u -> (forall t, (t < 3)%nat -> x t = u * d t) -> norm x = u.
Proof.
  intros H Hu Hx. unfold norm. rewrite !Hx by lia. unfold sq in H.
  replace (_ + _ + _) with (u ^ 2 * (d 0%nat ^ 2 + d 1%nat ^ 2 + d 2%nat ^ 2)) by ring. rewrite H, Rmult_1_r. apply sqrt_pow2. exact Hu.
Qed.

Section Pair.
Variables (bb : bool) (x0 x1 : vec) (a0 a1 mu : R).
Hypothesis H0 : 0 < a0. Hypothesis H1 : 0 < a1. Hypothesis Hmu : mu <> 0.
Let r := norm (vsub x1 x0).
Hypothesis Hr : / 10 ^ 8 < r. Hypothesis Hr' : / 10 ^ 8 < r / a0.
Let d := vscal (/ r) (vsub x1 x0).
Let lam := a1 / a0.
Let s := 2 * r / (a0 + a1).
Let Q := to_direction d.
Let N := pair_posdata lam s.
Let Z := rescaled a0 (turned Q N).

Lemma e8 : 0 < / 10 ^ 8. Proof. apply Rinv_0_lt_compat, pow_lt. lra. Qed.
Lemma r_pos : 0 < r. Proof. pose proof e8. lra. Qed.
Lemma lam_pos : 0 < lam. Proof. unfold lam. apply Rdiv_lt_0_compat; assumption. Qed.
Lemma d_unit : sq d = 1.
Proof.
  pose proof r_pos as P. unfold sq, d, vscal. replace (_ + _ + _) with (/ r ^ 2 * (r ^ 2)); [field; lra|].
  unfold r at 2. unfold norm. rewrite pow2_sqrt by nra. field. lra.
Qed.
Lemma Q_orth : orthogonal Q. Proof. apply to_direction_orth, d_unit. Qed.
Lemma dist_N : s * (1 + lam) * (1 / 2) = r / a0. Proof. unfold s, lam. field. split; lra. Qed.
Lemma e10 : / 10 ^ 10 < / 10 ^ 8. Proof. apply Rinv_lt_contravar; [apply Rmult_lt_0_compat; apply pow_lt; lra|]. lra. Qed.
Lemma N_distinct : distinct_beads (2 + 2 * 0) (bead_positions N) (bead_sizes N).
Proof. apply pair_distinct; [apply lam_pos|]. rewrite dist_N. pose proof e10. lra. Qed.
Lemma rotQ : rot Q ex = d. Proof. apply to_direction_ex. Qed.

Lemma T_positions b : (b < 2)%nat -> bead_positions (turned Q N) b = vscal (match b with 0%nat => 0 | _ => r / a0 end) d.
Proof.
  intros Hb. rewrite bead_pos2 by (reflexivity || exact Hb). cbn [turned sphere_positions N pair_posdata].
  destruct b as [|b]; rewrite rotv, rotQ; [reflexivity|]. f_equal. rewrite <- dist_N. reflexivity.
Qed.
Lemma two_apart n' x h : (n' = 2)%nat -> 0 < h -> / 10 ^ 8 < h * (r / a0) -> (forall b, (b < 2)%nat -> forall t, (t < 3)%nat -> x b t = h * vscal (match b with 0%nat => 0 | _ => r / a0 end) d t) ->
  apart n' x.
Proof.
  intros -> Hh Hb Hx p q Hp Hq Ne. pose proof e8.
  assert (G : norm (vsub (x p) (x q)) = h * (r / a0)); [|rewrite G; exact Hb].
  destruct p as [|[|p]], q as [|[|q]]; try lia.
  - apply (norm_along (vopp d)); [unfold sq, vopp; rewrite <- d_unit; unfold sq; ring|lra|]. intros t Ht. unfold vsub, vopp. rewrite !Hx by lia. unfold vscal. ring.
  - apply (norm_along d); [apply d_unit|lra|]. intros t Ht. unfold vsub. rewrite !Hx by lia. unfold vscal. ring.
Qed.
Lemma T_apart : apart 2 (bead_positions (turned Q N)).
Proof. apply (two_apart 2 _ 1); try lra; try reflexivity. intros b Hb t Ht. rewrite T_positions by exact Hb. ring. Qed.
Lemma Z_apart : apart 2 (fun b => vscal a0 (bead_positions (turned Q N) b)).
Proof.
  apply (two_apart 2 _ a0); try lra; try reflexivity.
  - replace (a0 * (r / a0)) with r by (field; lra). exact Hr.
  - intros b Hb t Ht. rewrite T_positions by exact Hb. reflexivity.
Qed.

Lemma Z_same rr c : (rr < 22)%nat -> (c < 22)%nat ->
  generate_Minfinity bb (two_spheres x0 x1 a0 a1) mu rr c = generate_Minfinity bb Z mu rr c.
Proof.
  intros Hrr Hc. rewrite <- (gen_translate bb Z mu x0).
  assert (SZ : forall b t, (b < 2)%nat -> sphere_positions Z b t = a0 * (match b with 0%nat => 0 | _ => r / a0 end * d t)).
  { intros b t Hb. pose proof (T_positions b Hb) as E. rewrite bead_pos2 in E by (reflexivity || exact Hb).
    change (sphere_positions Z b t) with (a0 * sphere_positions (turned Q N) b t). rewrite E. reflexivity. }
  pose proof r_pos as RP.
  apply two_ext; try reflexivity; try assumption.
  - intros [|[|b]] Hb; [| |lia]; cbn [two_spheres sphere_sizes translate Z rescaled turned N pair_posdata].
    + split; [exact H0|ring].
    + split; [exact H1|]. unfold lam. field. lra.
  - intros b t Hb Ht. cbn [translate sphere_positions]. unfold vadd. rewrite SZ by exact Hb.
    destruct b as [|b]; cbn [two_spheres sphere_positions]; [ring|]. unfold d, vscal, vsub. field. split; lra.
  - cbn [two_spheres sphere_positions]. replace (norm _) with r; [exact Hr|]. unfold r, norm, vsub. f_equal. ring.
Qed.

Theorem pair_general I J k1 k2 q i j : is_inv 22 (generate_Minfinity bb N 1) I ->
  is_inv 22 (generate_Minfinity bb (two_spheres x0 x1 a0 a1) mu) J ->
  (q < 2)%nat -> k1 <> KB -> k2 <> KB -> (mrank k2 <= mrank k1)%nat -> (i < ksize k1)%nat -> (j < ksize k2)%nat ->
  pair_block J k1 0 k2 q i j = mu * two_body (fun n => extract I n q) k1 k2 d a0 i j.
Proof.
  intros HI HJ Hq N1 N2 Hk Hi Hj.
  assert (V1 : kvalid 2 0 k1 0) by (destruct k1; cbn; lia || congruence).
  assert (V2 : kvalid 2 0 k2 q) by (destruct k2; cbn; lia || congruence).
  assert (AI : axisymmetric I).
  { apply (pair_axi bb lam s); [apply lam_pos| |exact HI]. rewrite dist_N. pose proof e10. lra. }
  assert (SI : msym 22 I) by (apply (is_inv_sym 22 (generate_Minfinity bb N 1)); [apply (gen_sym bb N 1)|exact HI]).
  destruct (turned_invertible Q Q_orth bb N 1 N_distinct I HI) as [IT HT]. change (is_inv 22 (generate_Minfinity bb (turned Q N) 1) IT) in HT.
  pose proof (far_commutes Q Q_orth bb N 1 N_distinct) as CT.
  pose proof (commutes_inv Q 2 0 _ _ I IT HI HT CT) as CI.
  assert (HM : mobility_rescaled a0 2 22 (generate_Minfinity bb (turned Q N) 1) (generate_Minfinity bb Z 1)).
  { apply (blocks_mobility a0 2 0). apply (far_scaled a0 H0 bb (turned Q N) 1); [|exact T_apart|exact Z_apart|lra].
    intros b Hb. change (b < 2)%nat in Hb. rewrite bead_size2 by (reflexivity || exact Hb). cbn [turned sphere_sizes N pair_posdata].
    pose proof lam_pos. destruct b; lra. }
  destruct (inv_exists a0 H0 2 22 _ _ IT HM HT) as [IZ HZ].
  pose proof (inv_scaled a0 H0 2 22 _ _ IT IZ HM HT HZ) as SZ.
  assert (HZm : is_inv 22 (generate_Minfinity bb (two_spheres x0 x1 a0 a1) mu) (fun rr c => mu * IZ rr c)).
  { apply (inv_mu 22 (generate_Minfinity bb Z 1)); [exact Hmu|exact HZ|]. intros rr c Hrr Hc. rewrite Z_same by assumption.
    pose proof (gen_mu bb Z 1 mu rr c Hrr Hc) as E. rewrite Rmult_1_r in E. exact E. }
  unfold pair_block.
  assert (B1 : (kstart 2 k1 0 + i < 22)%nat) by (apply (block_range 2 0 k1 0 i V1 Hi)).
  assert (B2 : (kstart 2 k2 q + j < 22)%nat) by (apply (block_range 2 0 k2 q j V2 Hj)).
  rewrite (is_inv_unique 22 _ J _ HJ HZm) by assumption. f_equal.
  rewrite SZ by assumption. rewrite (weight_at a0 2 0 k1 0 i V1 Hi), (weight_at a0 2 0 k2 q j V2 Hj).
  change (IT (kstart 2 k1 0 + i)%nat (kstart 2 k2 q + j)%nat) with (ent 2 IT k1 0 k2 q i j).
  rewrite (commutes_turned Q 2 0 I IT k1 0 k2 q i j Q_orth CI V1 V2 Hi Hj).
  replace (two_body (fun n => extract I n q) k1 k2 d a0 i j) with (two_body (fun n => extract I n q) k1 k2 d (a0 * 1) i j) by (rewrite Rmult_1_r; reflexivity).
  rewrite (two_body_scal a0 N) by exact Hk. unfold ru_. f_equal.
  rewrite <- rotQ. rewrite (two_body_rot Q Q_orth ex) by (assumption || (unfold sq, ex; cbn [v3]; ring)).
  unfold turned_block. apply rsum_ext. intros a Ha. apply rsum_ext. intros b Hb. f_equal.
  apply axi_blocks; assumption.
Qed.
End Pair.
