(** A symmetric matrix of a pair that has the symmetries of the x axis consists
    of two-body functions of the extracted scalars. *)
From Coq Require Import Reals Arith Bool List Lia Lra FunctionalExtensionality.
From Verif Require Import Base Model_Pack Model_Mob Model_Layout Model_Minf Model_Subtract
  Spec_Layout Spec_Minf Spec_R2B Spec_Rotate Proof_Layout Proof_Minf
  Proof_Rotate1 Proof_Rotate2 Proof_Rotate3 Proof_Rotate4 Proof_Rotate5 Proof_Rotate8 Proof_Rotate9 Proof_Axi1 Proof_Axi2.
Import ListNotations.
Local Open Scope R_scope.

Definition axisymmetric (I : mat) : Prop :=
  commutes mirror_y 2 0 I I /\ commutes mirror_z 2 0 I I /\ commutes swap_yz 2 0 I I /\ commutes turn_x 2 0 I I.

Lemma PI_nz : PI <> 0. Proof. apply Rgt_not_eq, PI_RGT_0. Qed.
Lemma R_nz : (sqrt 3 + 3) / 6 <> 0. Proof. pose proof (sqrt_lt_R0 3). lra. Qed.

Lemma axi_blocks I k1 k2 q i j : axisymmetric I -> msym 22 I -> (q < 2)%nat -> k1 <> KB -> k2 <> KB -> (mrank k2 <= mrank k1)%nat ->
  (i < ksize k1)%nat -> (j < ksize k2)%nat ->
  ent 2 I k1 0 k2 q i j = two_body (fun n => extract I n q) k1 k2 ex 1 i j.
Proof.
  intros (Ay & Az & As & At) Sy Hq N1 N2 Hr Hi Hj.
  assert (V1 : kvalid 2 0 k1 0) by (destruct k1; cbn; lia || congruence).
  assert (V2 : kvalid 2 0 k2 q) by (destruct k2; cbn; lia || congruence).
  assert (C : forall Q, commutes Q 2 0 I I -> intertwines Q k1 k2 (ent 2 I k1 0 k2 q)).
  { intros Q HQ s t Hs Ht. apply (commutes_blocks Q 2 0 I I); assumption. }
  pose proof (C _ Ay) as By. pose proof (C _ Az) as Bz. pose proof (C _ As) as Bs. pose proof (C _ At) as Bt. clear C Ay Az As At.
  pose proof PI_nz as HP. pose proof s2_nz as H2. pose proof R_nz as HR. pose proof s3_sq as H3.
  destruct k1, k2; cbn [mrank] in Hr; try lia; try congruence; cbn [ksize] in Hi, Hj.
  - rewrite (form_UU _ KU KU eq_refl eq_refl By Bz Bs i j Hi Hj), two_UU by (reflexivity || assumption).
    f_equal; unfold ent, extract; cbn [kstart]; destruct q as [|[|q]]; try lia; cbn [Nat.mul Nat.add]; field; assumption.
  - rewrite (form_OU _ KU eq_refl By Bz Bs i j Hi Hj), two_OU by (reflexivity || assumption).
    f_equal; unfold ent, extract; cbn [kstart]; destruct q as [|[|q]]; try lia; cbn [Nat.mul Nat.add]; rewrite Sy by lia; field; assumption.
  - rewrite (form_OO _ By Bz Bs i j Hi Hj), two_OO by assumption.
    f_equal; unfold ent, extract; cbn [kstart]; destruct q as [|[|q]]; try lia; cbn [Nat.mul Nat.add]; field; assumption.
  - rewrite (form_SU _ KU eq_refl By Bz Bs i j Hi Hj), two_SU by (reflexivity || assumption).
    f_equal; unfold ent, extract; cbn [kstart]; destruct q as [|[|q]]; try lia; cbn [Nat.mul Nat.add]; rewrite Sy by lia; field; repeat split; assumption || lra.
  - rewrite (form_SO _ By Bz Bs i j Hi Hj), two_SO by assumption.
    f_equal; unfold ent, extract; cbn [kstart]; destruct q as [|[|q]]; try lia; cbn [Nat.mul Nat.add]; rewrite Sy by lia; field; repeat split; assumption || lra.
  - rewrite (form_SS _ By Bz Bs Bt i j Hi Hj), two_SS by assumption.
    f_equal; unfold ent, extract; cbn [kstart]; destruct q as [|[|q]]; try lia; cbn [Nat.mul Nat.add]; field; assumption.
Qed.

(** The pair on the x axis. *)
Lemma fixed_x Q u : orthogonal Q -> Q 0%nat 0%nat = 1 -> Q 1%nat 0%nat = 0 -> Q 2%nat 0%nat = 0 -> (forall i, Q (3 + i)%nat 0%nat = 0) ->
  rot Q (v3 u 0 0) = v3 u 0 0.
Proof.
  intros HQ A B C D. apply functional_extensionality. intros [|[|[|i]]]; unfold rot, mvec, rsum; cbn [v3]; rewrite ?A, ?B, ?C; try ring.
  specialize (D i). cbn [Nat.add] in D. rewrite D. ring.
Qed.
Definition fixes_x (Q : mat) : Prop := orthogonal Q /\ forall u, rot Q (v3 u 0 0) = v3 u 0 0.
Lemma fix_my : fixes_x mirror_y. Proof. split; [apply mirror_y_orth|]. intros u. apply fixed_x; try reflexivity. apply mirror_y_orth. Qed.
Lemma fix_mz : fixes_x mirror_z. Proof. split; [apply mirror_orthogonal|]. intros u. apply fixed_x; try reflexivity. apply mirror_orthogonal. Qed.
Lemma fix_sw : fixes_x swap_yz. Proof. split; [apply swap_orth|]. intros u. apply fixed_x; try reflexivity. apply swap_orth. Qed.
Lemma fix_tx : fixes_x turn_x. Proof. split; [apply turn_x_orth|]. intros u. apply fixed_x; try reflexivity. apply turn_x_orth. Qed.

Lemma pair_fixed Q lam s : fixes_x Q -> turned Q (pair_posdata lam s) = pair_posdata lam s.
Proof.
  intros [_ F]. unfold turned, pair_posdata. cbn [num_spheres num_dumbbells sphere_sizes sphere_positions dumbbell_sizes dumbbell_positions dumbbell_deltax].
  f_equal; apply functional_extensionality; intros i; try apply F. destruct i; apply F.
Qed.
Lemma pair_distinct lam s : 0 < lam -> / 10 ^ 10 < s * (1 + lam) * (1 / 2) -> distinct_beads (2 + 2 * 0) (bead_positions (pair_posdata lam s)) (bead_sizes (pair_posdata lam s)).
Proof.
  intros Hl Hs. assert (P10 : 0 < / 10 ^ 10) by (apply Rinv_0_lt_compat, pow_lt; lra). set (t := s * (1 + lam) * (1 / 2)) in *.
  assert (N : forall x, norm (vsub (v3 t 0 0) (v3 0 0 0)) = t /\ norm (vsub (v3 0 0 0) (v3 t 0 0)) = t /\ x = x :> nat).
  { intros x. repeat split; unfold norm, vsub; cbn [v3]; match goal with |- sqrt ?z = _ => replace z with (t ^ 2) by ring end; apply sqrt_pow2; lra. }
  split.
  - intros [|[|b]] Hb; unfold bead_sizes; cbn; lra || lia.
  - intros p q Hp Hq Ne. destruct p as [|[|p]], q as [|[|q]]; try lia; unfold bead_positions; cbn [num_spheres num_dumbbells pair_posdata Nat.ltb Nat.leb sphere_positions]; fold t.
    + rewrite (proj1 (proj2 (N 0%nat))). exact Hs.
    + rewrite (proj1 (N 0%nat)). exact Hs.
Qed.
Lemma pair_axi bb lam s I : 0 < lam -> / 10 ^ 10 < s * (1 + lam) * (1 / 2) -> is_inv 22 (generate_Minfinity bb (pair_posdata lam s) 1) I -> axisymmetric I.
Proof.
  intros Hl Hs HI. pose proof (pair_distinct lam s Hl Hs) as HD.
  assert (C : forall Q, fixes_x Q -> commutes Q 2 0 I I).
  { intros Q HF. pose proof (far_commutes Q (proj1 HF) bb (pair_posdata lam s) 1 HD) as K. rewrite (pair_fixed Q lam s HF) in K.
    exact (commutes_inv Q 2 0 _ _ I I HI HI K). }
  split; [|split; [|split]]; apply C; [apply fix_my|apply fix_mz|apply fix_sw|apply fix_tx].
Qed.
