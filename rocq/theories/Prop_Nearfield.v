(** Near-field resistance functions: C71, C72, C73. *)
From Coq Require Import Reals List Arith ZArith Bool Lra Lia FunctionalExtensionality.
From Verif Require Import Base Model_Mob Model_Nearfield Spec_Scalars Spec_Nearfield
  Proof_Nearfield1 Proof_Nearfield2 Proof_Nearfield3 Proof_Nearfield4 Proof_Nearfield5 Proof_Nearfield6
  Proof_Nearfield9 Proof_Nearfield10 Proof_Nearfield11.
Import ListNotations.
Local Open Scope R_scope.

(** C71: spheres moving with a linear flow feel no singular force or torque. *)
Theorem C71_force_and_torque zeta a b d V w x0 E F T S : 0 < a -> 0 < b -> strain E -> rsum 3 (fun i => d i * d i) = 1 ->
  (forall xi, 0 < xi -> held_in_flow zeta a b d V w x0 E xi (F xi) (T xi) (S xi)) ->
  forall p i, (p < 2)%nat -> (i < 3)%nat -> regular (fun xi => F xi p i) /\ regular (fun xi => T xi p i).
Proof.
  intros Ha Hb HE Hd H p i Hp Hi. split.
  - exact (F_regular zeta a b d V w x0 E Ha Hb HE F T S H p i Hp Hi).
  - exact (T_regular zeta a b d V w x0 E Ha Hb HE Hd F T S H p i Hp Hi).
Qed.
Print Assumptions C71_force_and_torque.

(** The stresslet has one singular term too many. *)
Theorem C71_stresslet zeta a b d V w x0 E F T S : 0 < a -> 0 < b -> strain E -> rsum 3 (fun i => d i * d i) = 1 ->
  (forall xi, 0 < xi -> held_in_flow zeta a b d V w x0 E xi (F xi) (T xi) (S xi)) ->
  forall p i j, (p < 2)%nat -> (i < 3)%nat -> (j < 3)%nat ->
  let Ed k := rsum 3 (fun l => E k l * d l) in
  let across k := Ed k - rsum 3 (fun l => d l * Ed l) * d k in
  regular (fun xi => S xi p i j
    - 4 / 25 * PI * a ^ 2 * b ^ 2 * (a ^ 2 + b ^ 2) / (a + b) ^ 3 * (d i * across j + d j * across i) * (xi * ln (/ xi))).
Proof.
  intros Ha Hb HE Hd H p i j Hp Hi Hj Ed across.
  exact (S_regular zeta a b d V w x0 E Ha Hb HE F T S H p i j Hp Hi Hj).
Qed.
Print Assumptions C71_stresslet.

(** In strains with the line of centres as a principal axis it does not. *)
Theorem C71_stresslet_regular zeta a b d V w x0 E F T S : 0 < a -> 0 < b -> strain E -> rsum 3 (fun i => d i * d i) = 1 ->
  (exists c, forall k, (k < 3)%nat -> rsum 3 (fun l => E k l * d l) = c * d k) ->
  (forall xi, 0 < xi -> held_in_flow zeta a b d V w x0 E xi (F xi) (T xi) (S xi)) ->
  forall p i j, (p < 2)%nat -> (i < 3)%nat -> (j < 3)%nat -> regular (fun xi => S xi p i j).
Proof.
  intros Ha Hb HE Hd [c Hc] H p i j Hp Hi Hj.
  apply (regular_ext _ (fun xi => S xi p i j - residue a b * (d i * shear d E j + d j * shear d E i) * (xi * ln (/ xi)))).
  - intros xi Hx. assert (Z : forall k, (k < 3)%nat -> shear d E k = 0).
    { intros k Hk. unfold shear, dEd, Ed. rewrite (rsum_ext 3 (fun i => d i * _) (fun i => d i * (c * d i))).
      - rewrite (rsum_ext 3 (fun i => d i * (c * d i)) (fun i => c * (d i * d i))) by (intros; ring).
        rewrite rsum_scal_l, Hd, (Hc k Hk). ring.
      - intros l Hl. rewrite (Hc l Hl). reflexivity. }
    rewrite (Z i Hi), (Z j Hj). ring.
  - exact (S_regular zeta a b d V w x0 E Ha Hb HE F T S H p i j Hp Hi Hj).
Qed.
Print Assumptions C71_stresslet_regular.

(** The functions for strain across the line of centres (Jeffrey 1992): one singular
    term, opposite in the two, so that it only cancels if both spheres are strained alike. *)
Theorem C71_across lam : 0 < lam -> exists c11 c12, forall xi, 0 < xi ->
  let singular := 3 / 10 * lam ^ 2 * (1 + lam ^ 2) / (1 + lam) ^ 3 * (xi * ln (/ xi)) in
  Z11M xi lam = c11 - singular /\ Z12M xi lam = c12 + singular.
Proof.
  intros Hl. exists (MZ11 lam), (1 / 8 * (1 + lam) ^ 3 * MZ12 lam). intros xi Hx. cbv zeta. unfold Z11M, Z12M. cbv zeta.
  generalize (MZ11 lam) (MZ12 lam) (ln (/ xi)). intros A B L. unfold G3zm. split; field; lra.
Qed.
Print Assumptions C71_across.

Definition ex : vec := v3 1 0 0.
(** Strain in the xy plane. *)
Definition Exy : mat := fun i j => match i, j with 0%nat, 1%nat | 1%nat, 0%nat => 1 | _, _ => 0 end.
Theorem C71_stresslet_refuted zeta a b V w x0 F T S : 0 < a -> 0 < b ->
  (forall xi, 0 < xi -> held_in_flow zeta a b ex V w x0 Exy xi (F xi) (T xi) (S xi)) ->
  ~ regular (fun xi => S xi 0%nat 0%nat 1%nat).
Proof.
  intros Ha Hb H R.
  assert (HE : strain Exy). { split; [|cbn; ring]. intros i j Hi Hj. destruct i as [|[|[|i]]], j as [|[|[|j]]]; try lia; reflexivity. }
  pose proof (S_regular zeta a b ex V w x0 Exy Ha Hb HE F T S H 0%nat 0%nat 1%nat ltac:(lia) ltac:(lia) ltac:(lia)) as Q.
  assert (Hr : 0 < residue a b).
  { unfold residue. apply Rmult_lt_0_compat; [|apply Rinv_0_lt_compat, pow_lt; lra].
    pose proof PI_RGT_0. pose proof (pow_lt a 2 Ha). pose proof (pow_lt b 2 Hb).
    apply Rmult_lt_0_compat; [|lra]. apply Rmult_lt_0_compat; [|lra]. apply Rmult_lt_0_compat; [lra|lra]. }
  apply (xl_not_regular (residue a b)); [lra|].
  apply (regular_ext _ (fun xi => S xi 0%nat 0%nat 1%nat + (S xi 0%nat 0%nat 1%nat
     - residue a b * (ex 0%nat * shear ex Exy 1 + ex 1%nat * shear ex Exy 0) * (xi * ln (/ xi))) * - (1))).
  - intros xi Hx. unfold shear, dEd, Ed, ex, Exy. cbn [rsum v3]. ring.
  - destruct R as (c0 & c1 & c2 & c3 & c4 & R). destruct Q as (e0 & e1 & e2 & e3 & e4 & Q).
    exists (c0 - e0), (c1 - e1), (c2 - e2), (c3 - e3), (c4 - e4). intros xi Hx. pose proof (Q xi Hx) as Q'. cbv beta in Q'. pose proof (R xi Hx) as R'. cbv beta in R'. rewrite Q', R'. ring.
Qed.
Print Assumptions C71_stresslet_refuted.

(** The coefficient 748 in place of 728 in G6ym, which enters Y12M through the
    term G6ym xi log(1/xi) and a constant, makes all stresslets regular. *)
Theorem C71_correction c zeta a b d V w x0 E F T S : 0 < a -> 0 < b -> strain E ->
  let G6 coeff lam := 3 / 2500 * lam * (221 - coeff * lam + 1902 * lam ^ 2 - coeff * lam ^ 3 + 221 * lam ^ 4) / (1 + lam) ^ 3 in
  (forall xi, 0 < xi -> resistance_law (corrected_scalars (fun xi lam => (G6 748 lam - G6 728 lam) * (xi * ln (/ xi)) + c lam) zeta a b xi) d
    (fun p => linear_flow V w E (centre d (centre_distance a b xi) x0 p)) (fun _ => w) (F xi) (T xi) (fun _ => E) (S xi)) ->
  forall p i j, (p < 2)%nat -> (i < 3)%nat -> (j < 3)%nat -> regular (fun xi => S xi p i j).
Proof.
  intros Ha Hb HE G6 H p i j Hp Hi Hj. refine (corrected_regular c zeta a b d V w x0 E Ha Hb HE F T S _ p i j Hp Hi Hj).
  intros xi Hx. replace (corrected_scalars (fun xi lam => dG6 lam * (xi * ln (/ xi)) + c lam) zeta a b xi)
    with (corrected_scalars (fun xi lam => (G6 748 lam - G6 728 lam) * (xi * ln (/ xi)) + c lam) zeta a b xi); [exact (H xi Hx)|].
  assert (Q : forall lam, G6 748 lam - G6 728 lam = dG6 lam) by (intros lam; unfold G6, dG6, Rdiv; ring).
  extensionality m. unfold corrected_scalars. rewrite !Q. reflexivity.
Qed.
Print Assumptions C71_correction.

(** The spheres of the theorems exist: the law gives their moments. *)
Example C71_example : exists F T S, forall xi : R, 0 < xi ->
  held_in_flow (fun _ _ => 1) 1 2 ex (v3 1 0 0) (v3 0 0 1) (v3 0 0 0) Exy xi (F xi) (T xi) (S xi).
Proof.
  unfold held_in_flow, resistance_law.
  eexists (fun xi p i => _), (fun xi p i => _), (fun xi p i j => _). intros xi Hx. cbv beta.
  split; [|split]; intros; reflexivity.
Qed.
(** C72: the reciprocal theorem. *)
Theorem C72_scalars zeta n xi lam : 0 < lam -> reciprocal_family n ->
  near zeta n 1 xi lam = lam ^ radius_power n * near zeta n 1 xi (/ lam).
Proof. intros Hl Hn. exact (near_reciprocal zeta n xi lam Hl Hn). Qed.
Print Assumptions C72_scalars.
Theorem C72_reciprocal_theorem zeta a b xi d U O F T E S U' O' F' T' E' S' : 0 < a -> 0 < b ->
  resistance_law (pair_scalars zeta a b xi) d U O F T E S -> resistance_law (pair_scalars zeta a b xi) d U' O' F' T' E' S' ->
  power F T S U' O' E' = power F' T' S' U O E.
Proof.
  intros Ha Hb. apply lorentz. intros n Hn. apply pair_symmetric; assumption.
Qed.
Print Assumptions C72_reciprocal_theorem.

(** Not for the families that relate different kinds: Y11B is not symmetric. *)
Example C72_example : X12A 1 2 = 2 * X12A 1 (1 / 2).
Proof.
  pose proof (C72_scalars (fun _ _ => 0) 0 1 2 ltac:(lra) (or_introl eq_refl)) as H. cbn [near radius_power] in H.
  replace (1 / 2) with (/ 2) by lra. rewrite H. ring.
Qed.

(** C73: the table of the script, and what the comments of the source say about
    the sums. *)
Theorem C73_table zeta sd lams n gamma i j : (n < 11)%nat -> (gamma < 2)%nat -> (i < length sd)%nat -> (j < length lams)%nat ->
  fill_table (scalar_functions zeta) sd lams n gamma i j = near zeta n gamma (nth i sd 0 - 2) (nth j lams 0).
Proof.
  intros Hn Hg Hi Hj. rewrite fill_ok by (try assumption; cbn [length scalar_functions]; lia).
  destruct gamma as [|[|g]]; [| |lia]; do 11 (destruct n as [|n]; [reflexivity|]); lia.
Qed.
Print Assumptions C73_table.
Theorem C73_table_reciprocal zeta sd lams n i j j' : reciprocal_family n -> (i < length sd)%nat -> (j < length lams)%nat -> (j' < length lams)%nat ->
  0 < nth j lams 0 -> nth j' lams 0 = / nth j lams 0 ->
  fill_table (scalar_functions zeta) sd lams n 1%nat i j = nth j lams 0 ^ radius_power n * fill_table (scalar_functions zeta) sd lams n 1%nat i j'.
Proof.
  intros Hn Hi Hj Hj' Hl E. assert (n < 11)%nat by (unfold reciprocal_family in Hn; lia).
  rewrite !C73_table by (try assumption; lia). rewrite E. apply C72_scalars; assumption.
Qed.
Print Assumptions C73_table_reciprocal.
Theorem C73_sums lam :
  AX11 lam = 1 - 1 / 4 * G1xa lam + original_sum Fxa G1xa G2xa G3xa lam (evens 50) /\
  AY11 lam = 1 + original_sum Fya (fun _ => 0) G2ya G3ya lam (evens 50) /\
  AY12 lam = - (2) / (1 + lam) * (2 * G2ya lam * ln 2 + 2 * G3ya lam + original_sum Fya (fun _ => 0) G2ya G3ya lam (odds 50)).
Proof. split; [apply AX11_m1|]. split; [apply AY11_m1|apply AY12_m1]. Qed.
Print Assumptions C73_sums.
Theorem C73_coefficient k lam : 0 < lam -> Fzm_with_sum_coeff k lam = / 2 ^ k * / (1 + lam) ^ k * Fzm k lam.
Proof. apply Fzm_coeff. Qed.
Print Assumptions C73_coefficient.

(** A grid of separations and size ratios holding a ratio and its inverse; the
    first coefficients of Jeffrey and Onishi (3.15): f1 = 3 lam, f2 = 9 lam. *)
Example C73_example zeta :
  fill_table (scalar_functions zeta) [201 / 100; 3] [1; 1 / 2; 2] 8%nat 1%nat 1%nat 2%nat =
  8 * fill_table (scalar_functions zeta) [201 / 100; 3] [1; 1 / 2; 2] 8%nat 1%nat 1%nat 1%nat.
Proof.
  rewrite (C73_table_reciprocal zeta [201 / 100; 3] [1; 1 / 2; 2] 8 1 2 1) by (cbn; try lra; try lia; unfold reciprocal_family; lia).
  cbn [nth radius_power]. ring.
Qed.
Example C73_first_coefficients lam : Fxa 1 lam = 3 * lam /\ Fxa 2 lam = 9 * lam.
Proof.
  split; cbv -[Rplus Rmult Rminus Ropp Rinv Rdiv pow INR IZR]; cbn [INR pow]; field.
Qed.
