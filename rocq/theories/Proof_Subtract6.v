(** Isolated pairs; the table with single-sphere drags subtracted. *)
From Coq Require Import Reals Arith Bool List Lia Lra FunctionalExtensionality.
From Verif Require Import Base Py Model_Pack Model_Mob Model_Layout Model_Minf Model_Grand Model_GrandP Model_L Model_Close Model_R2B Model_Subtract
  Spec_Layout Spec_Minf Spec_R2B Spec_Close Spec_Subtract
  Proof_Layout Proof_Minf Proof_Minf2 Proof_Minf3 Proof_Minf4 Proof_R2B Proof_R2B2 Proof_R2B3 Proof_R2B4 Proof_Close Proof_Interp
  Proof_GrandP Proof_Subtract1 Proof_Subtract2 Proof_Subtract3 Proof_Subtract4.
Import ListNotations.
Local Open Scope R_scope.

Lemma swapped_inv bb x0 x1 a0 a1 mu J : 0 < a0 -> 0 < a1 -> / 10 ^ 8 < norm (vsub x1 x0) ->
  is_inv 22 (generate_Minfinity bb (two_spheres x0 x1 a0 a1) mu) J ->
  exists J', is_inv 22 (generate_Minfinity bb (two_spheres x1 x0 a1 a0) mu) J'.
Proof.
  intros H0 H1 H8 HJ. set (p := two_spheres x0 x1 a0 a1) in *.
  pose proof (comp_relabel_permutes p other (fun i => i) other_permutes none_permutes) as HP.
  exists (fun r c => J (comp_relabel p other (fun i => i) r) (comp_relabel p other (fun i => i) c)).
  refine (is_inv_ext _ _ _ _ _ _ (fun _ _ _ _ => eq_refl) (is_inv_perm 22 _ _ _ HP HJ)).
  intros r c Hr Hc. transitivity (generate_Minfinity bb (relabel other (fun i => i) p) mu r c).
  - symmetry. destruct (block_cover 2 0 r Hr) as (k & b & x & V & Hx & ->).
    destruct (block_cover 2 0 c Hc) as (k' & b' & x' & V' & Hx' & ->).
    pose proof (comp_relabel_block p other (fun i => i) k b x V Hx) as E1. pose proof (comp_relabel_block p other (fun i => i) k' b' x' V' Hx') as E2.
    change (num_spheres p) with 2%nat in E1, E2. rewrite E1, E2.
    apply (gen_relabel bb p mu other (fun i => i)); try assumption; try apply other_permutes; try apply none_permutes.
    apply two_distinct; try assumption. pose proof e10. lra.
  - apply two_ext; try reflexivity; try assumption.
    + intros [|[|b]] Hb; [| |lia]; cbn; auto.
    + intros [|[|b]] t Hb Ht; [| |lia]; reflexivity.
Qed.

Section Isolated.
Variables (inv : nat -> mat -> mat) (bb : bool) (lams srange : list R) (raw : nat -> nat -> nat -> nat -> R)
  (x0 x1 : vec) (a0 a1 cf mu : R).
Let p := two_spheres x0 x1 a0 a1.
Let s := 2 * norm (vsub x1 x0) / (a0 + a1).
Hypothesis Hinc : increasing srange. Hypothesis Hdis : distinguishable lams.
Hypothesis Hmu : mu <> 0. Hypothesis H0 : 0 < a0. Hypothesis H1 : 0 < a1. Hypothesis Hs : s < 2 * cf.
Hypothesis H8 : / 10 ^ 8 < norm (vsub x1 x0). Hypothesis H80 : / 10 ^ 8 < norm (vsub x1 x0) / a0. Hypothesis H81 : / 10 ^ 8 < norm (vsub x1 x0) / a1.
Hypothesis Is : In s srange. Hypothesis I01 : In (a1 / a0) lams. Hypothesis I10 : In (a0 / a1) lams.
Hypothesis Hnorm : forall lam t, In lam lams -> In t srange ->
  is_inv 22 (generate_Minfinity bb (pair_posdata lam t) 1) (inv 22%nat (generate_Minfinity bb (pair_posdata lam t) 1)).
Hypothesis Hpair : is_inv 22 (generate_Minfinity bb p mu) (inv 22%nat (generate_Minfinity bb p mu)).

Theorem isolated G Gd : generate_R2Bexact_free (XYZ raw srange) lams bb p cf mu = Some G ->
  generate_R2Bexact_free (XYZ (subtract_R2Binfinity inv bb lams srange raw) srange) lams bb p cf mu = Some Gd ->
  forall r c, (r < 22)%nat -> (c < 22)%nat -> Gd r c + inv 22%nat (generate_Minfinity bb p mu) r c = G r c.
Proof.
  intros HG HGd r c Hr Hc. set (mi := inv 22%nat (generate_Minfinity bb p mu)) in *.
  destruct (swapped_inv bb x0 x1 a0 a1 mu mi H0 H1 H8 Hpair) as [J' HJ'].
  set (J := fun u v : nat => match u with 0%nat => mi | _ => J' end).
  assert (D01 : scaled_distance (bead_positions p) (bead_sizes p) 0 1 = s) by reflexivity.
  assert (D10 : scaled_distance (bead_positions p) (bead_sizes p) 1 0 = s) by (rewrite scaled_sym'; reflexivity).
  assert (P8 : 0 < / 10 ^ 8) by apply e8.
  assert (S0 : 0 < s) by (unfold s; apply Rdiv_lt_0_compat; lra).
  assert (Ha : forall b, (b < num_spheres p + 2 * num_dumbbells p)%nat -> 0 < bead_sizes p b).
  { intros [|[|b]] Hb; cbn in Hb; [exact H0|exact H1|lia]. }
  destruct (block_cover 2 0 r Hr) as (k1 & u & i & V1 & Hi & ->). destruct (block_cover 2 0 c Hc) as (k2 & v & j & V2 & Hj & ->).
  assert (N1 : k1 <> KB) by (intros ->; cbn in V1; lia). assert (N2 : k2 <> KB) by (intros ->; cbn in V2; lia).
  assert (Hu : (u < 2)%nat) by (destruct k1; cbn in V1; lia). assert (Hv : (v < 2)%nat) by (destruct k2; cbn in V2; lia).
  pose proof (near_subtracted inv bb lams srange raw p cf mu J Hinc Hdis Hmu ltac:(lra) Ha Hnorm) as K.
  assert (E : ent 2 G k1 u k2 v i j - ent 2 Gd k1 u k2 v i j = pairwise_far_field J (bead_positions p) (bead_sizes p) 2 cf k1 u k2 v i j).
  { apply K; try assumption. intros u' v' Hu' Hv' Ne _. change (num_spheres p + 2 * num_dumbbells p)%nat with 2%nat in Hu', Hv'.
    destruct u' as [|[|u']], v' as [|[|v']]; try lia; cbn [Nat.ltb].
    - rewrite D01. split; [exact Is|]. split; [exact I01|]. split; [exact H8|]. split; [exact H80|]. exact Hpair.
    - rewrite D10. split; [exact Is|]. split; [exact I10|].
      change (bead_positions p 0%nat) with x0. change (bead_positions p 1%nat) with x1. rewrite norm_flip. split; [exact H8|]. split; [exact H81|]. exact HJ'. }
  assert (F : pairwise_far_field J (bead_positions p) (bead_sizes p) 2 cf k1 u k2 v i j = mi (kstart 2 k1 u + i)%nat (kstart 2 k2 v + j)%nat).
  { pose proof (fun u v => pair_swap bb x0 x1 a0 a1 mu mi J' k1 u k2 v i j H0 H1 H8 Hpair HJ' N1 N2) as SW.
    unfold pairwise_far_field. destruct u as [|[|u]], v as [|[|v]]; try lia; cbn [Nat.eqb].
    - unfold rsum. cbn [Nat.eqb negb andb]. rewrite D01. destruct (Rlt_dec _ _) as [_|X]; [|lra]. cbn [J]. unfold pair_block. ring.
    - rewrite D01. destruct (Rlt_dec _ _) as [_|X]; [|lra]. reflexivity.
    - rewrite D10. destruct (Rlt_dec _ _) as [_|X]; [|lra]. cbn [J]. rewrite (SW 0 1)%nat by (assumption || lia). reflexivity.
    - unfold rsum. cbn [Nat.eqb negb andb]. rewrite D10. destruct (Rlt_dec _ _) as [_|X]; [|lra]. cbn [J]. rewrite (SW 0 0)%nat by (assumption || lia). unfold pair_block. cbn [Nat.sub]. ring. }
  rewrite F in E. unfold ent in E. lra.
Qed.
End Isolated.
