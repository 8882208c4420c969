(** The rows of the mobility matrix applied to forces and torques. *)
From Coq Require Import Reals Arith Bool List Lia Lra Psatz FunctionalExtensionality.
From Verif Require Import Base Model_Pack Model_Mob Model_Layout Model_Minf Spec_Layout Spec_Minf Spec_Rotate Spec_Convert Spec_Push
  Proof_Layout Proof_Mob Proof_Minf Proof_Minf2 Proof_Minf3 Proof_Minf4 Proof_Rotate1 Proof_Rotate2 Proof_Rotate5 Proof_Rescale1.
From Verif Require Proof_Axi1 Proof_Mob2.
Import ListNotations.
Local Open Scope R_scope.

Section Pair.
Variables (x1 x2 : vec) (a1 a2 mu : R) (F T : vec).
Let s := used_separation x1 x2 a1 a2.
Let e := heading x1 x2.
Let c := 1 / (8 * PI * mu).
Let r := fst (pair_geometry x1 x2 a1 a2).
Hypothesis Hmu : 0 < mu.
Hypothesis Ha : 0 < a1 + a2.
Hypothesis Hx : / 10 ^ 8 < norm (vsub x1 x2).
Lemma s_tiny : tiny < s.
Proof. unfold s, used_separation. apply Rlt_le_trans with (2 := Rmax_l _ _). pose proof e8. unfold tiny in *. lra. Qed.
Lemma s_0 : 0 < s. Proof. pose proof s_tiny. pose proof Proof_Mob2.tiny_pos. lra. Qed.
Lemma r_e i : (i < 3)%nat -> r i = s * e i.
Proof.
  intros Hi. destruct (geom_used x1 x2 a1 a2 Ha Hx) as (_ & G & _). unfold r. rewrite (G i Hi). fold s. unfold along, vscal, e, heading, vsub. unfold Rdiv. ring.
Qed.
Lemma e_1 : e 0%nat * e 0%nat + e 1%nat * e 1%nat + e 2%nat * e 2%nat = 1.
Proof.
  assert (E : 0 < / 10 ^ 8) by (apply Rinv_0_lt_compat, pow_lt; lra). unfold e, heading. set (n := norm (vsub x1 x2)) in *.
  assert (Q : n * n = (x1 0%nat - x2 0%nat) ^ 2 + (x1 1%nat - x2 1%nat) ^ 2 + (x1 2%nat - x2 2%nat) ^ 2).
  { unfold n, norm, vsub. rewrite sqrt_sqrt; [ring|]. apply Rplus_le_le_0_compat; [apply Rplus_le_le_0_compat|]; apply pow2_ge_0. }
  transitivity (((x1 0%nat - x2 0%nat) ^ 2 + (x1 1%nat - x2 1%nat) ^ 2 + (x1 2%nat - x2 2%nat) ^ 2) / (n * n)); [field; lra|]. rewrite <- Q. field. lra.
Qed.
Lemma r_far : tiny < Rabs (r 0%nat) + Rabs (r 1%nat) + Rabs (r 2%nat).
Proof.
  destruct (geom_used x1 x2 a1 a2 Ha Hx) as (_ & _ & G). fold r s in G. apply Rlt_le_trans with (1 := s_tiny). rewrite <- G. apply l1_norm.
Qed.
Lemma opp_far : tiny < Rabs (vopp r 0%nat) + Rabs (vopp r 1%nat) + Rabs (vopp r 2%nat).
Proof. unfold vopp. rewrite !Rabs_Ropp. exact r_far. Qed.

Ltac known := pose proof s_tiny as Hs; pose proof s_0 as Hs0; pose proof r_far as Hr; pose proof opp_far as Hr'; pose proof PI_RGT_0 as HPI;
  pose proof (r_e 0 ltac:(lia)) as R0; pose proof (r_e 1 ltac:(lia)) as R1; pose proof (r_e 2 ltac:(lia)) as R2; pose proof e_1 as E1.
Ltac opened := unfold swept, swirled, strained, pmob, M11, M12, M13, M22, M23, J, Lap_J, Rt, Lap_R, K, Lap_K, D_R, D_K, DLap_K, lsum2, distinct3, D_J, DD_J, DLap_J, kronkron, levi, dot3, cross, delta, rsum;
  fold s e c.
Ltac spell Hi := idx3 Hi; cbn [Nat.eqb negb andb orb v3].
Lemma uu i : (i < 3)%nat -> rsum 3 (fun j => pmob KU KU r s a1 a2 c mu i j * F j) = swept mu x1 x2 a1 a2 F (v3 0 0 0) i.
Proof.
  intros Hi. known. opened. destruct (Rlt_dec tiny s); [|contradiction].
  spell Hi; rewrite ?R0, ?R1, ?R2; unfold c; field; repeat split; lra.
Qed.
Lemma uo i : (i < 3)%nat -> rsum 3 (fun j => pmob KU KO r s a1 a2 c mu i j * T j) = swept mu x1 x2 a1 a2 (v3 0 0 0) T i.
Proof.
  intros Hi. known. opened. destruct (Rlt_dec tiny s); [|contradiction].
  spell Hi; rewrite ?R0, ?R1, ?R2; unfold c; field; repeat split; lra.
Qed.
Lemma ou i : (i < 3)%nat -> rsum 3 (fun j => pmob KO KU r s a1 a2 c mu i j * F j) = swirled mu x1 x2 a1 a2 F (v3 0 0 0) i.
Proof.
  intros Hi. known. opened. destruct (Rlt_dec tiny s); [|contradiction]. unfold vopp.
  spell Hi; rewrite ?R0, ?R1, ?R2; unfold c; field; repeat split; lra.
Qed.
Lemma oo i : (i < 3)%nat -> rsum 3 (fun j => pmob KO KO r s a1 a2 c mu i j * T j) = swirled mu x1 x2 a1 a2 (v3 0 0 0) T i.
Proof.
  intros Hi. known.
  transitivity ((3 * dot3 T e * e i + T i * (2 - 3 * (e 0%nat * e 0%nat + e 1%nat * e 1%nat + e 2%nat * e 2%nat))) / (16 * PI * mu * s ^ 3)).
  - opened. match goal with |- context [Rlt_dec tiny ?X] => destruct (Rlt_dec tiny X); [|contradiction] end.
    spell Hi; rewrite ?R0, ?R1, ?R2; unfold c; field; repeat split; lra.
  - rewrite E1. unfold swirled. fold s e. spell Hi; unfold cross, dot3; cbn [v3]; field; repeat split; lra.
Qed.
Lemma su m : (m < 5)%nat -> rsum 3 (fun j => pmob KS KU r s a1 a2 c mu m j * F j) = condense_idx (strained mu x1 x2 a1 a2 F (v3 0 0 0)) m.
Proof.
  intros Hm. known.
  transitivity (condense_idx (fun k l => rsum 3 (fun j => M13 (vopp r) s a2 a1 j k l c mu * F j)) m).
  - cbn [pmob]. unfold rsum. unfold condense_idx, rsum. ring.
  - apply condense_ext. intros k l Hk Hl. opened. destruct (Rlt_dec tiny s); [|contradiction]. unfold vopp.
    idx3 Hk; spell Hl; rewrite ?R0, ?R1, ?R2; unfold c; field; repeat split; lra.
Qed.
Lemma so m : (m < 5)%nat -> rsum 3 (fun j => pmob KS KO r s a1 a2 c mu m j * T j) = condense_idx (strained mu x1 x2 a1 a2 (v3 0 0 0) T) m.
Proof.
  intros Hm. known.
  transitivity (condense_idx (fun k l => rsum 3 (fun j => M23 (vopp r) s a2 a1 j k l c mu * T j)) m).
  - cbn [pmob]. unfold rsum. unfold condense_idx, rsum. ring.
  - apply condense_ext. intros k l Hk Hl. opened.  match goal with |- context [Rlt_dec tiny ?X] => destruct (Rlt_dec tiny X); [|contradiction] end. unfold vopp.
    idx3 Hk; spell Hl; rewrite ?R0, ?R1, ?R2; unfold c; field; repeat split; lra.
Qed.
End Pair.
