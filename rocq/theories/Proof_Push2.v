(** The velocities of any number of spheres on which forces and torques act. *)
From Coq Require Import Reals Arith Bool List Lia Lra FunctionalExtensionality.
From Verif Require Import Base Model_Pack Model_Mob Model_Layout Model_Minf Spec_Layout Spec_Minf Spec_Rotate Spec_Convert Spec_Push
  Proof_Layout Proof_Mob Proof_Minf Proof_Minf2 Proof_Minf3 Proof_Minf4 Proof_Rotate5 Proof_Push1.
Import ListNotations.
Local Open Scope R_scope.

Lemma swept_sum mu x1 x2 a1 a2 F T l : swept mu x1 x2 a1 a2 F (v3 0 0 0) l + swept mu x1 x2 a1 a2 (v3 0 0 0) T l = swept mu x1 x2 a1 a2 F T l.
Proof. unfold swept, dot3, cross, Rdiv. destruct l as [|[|[|l]]]; cbn [v3]; ring. Qed.
Lemma swirled_sum mu x1 x2 a1 a2 F T l : swirled mu x1 x2 a1 a2 F (v3 0 0 0) l + swirled mu x1 x2 a1 a2 (v3 0 0 0) T l = swirled mu x1 x2 a1 a2 F T l.
Proof. unfold swirled, dot3, cross, Rdiv. destruct l as [|[|[|l]]]; cbn [v3]; ring. Qed.
Lemma strained_sum mu x1 x2 a1 a2 F T k l : (k < 3)%nat -> (l < 3)%nat ->
  strained mu x1 x2 a1 a2 F (v3 0 0 0) k l + strained mu x1 x2 a1 a2 (v3 0 0 0) T k l = strained mu x1 x2 a1 a2 F T k l.
Proof. intros Hk Hl. unfold strained, dot3, cross, Rdiv. idx3 Hk; idx3 Hl; cbn [v3]; ring. Qed.

Section Rows.
Variables (bb : bool) (p : posdata) (mu : R) (w u : vec) (F T : nat -> vec).
Let Ns := num_spheres p.
Let x := bead_positions p.
Let a := bead_sizes p.
Let c := 1 / (8 * PI * mu).
Let M := generate_Minfinity bb p mu.
Hypothesis Hmu : 0 < mu.
Hypothesis Nd0 : num_dumbbells p = 0%nat.
Hypothesis Ha : forall b, (b < Ns)%nat -> 0 < a b.
Hypothesis Hx : forall b b', (b < Ns)%nat -> (b' < Ns)%nat -> b <> b' -> / 10 ^ 8 < norm (vsub (x b) (x b')).
Hypothesis HM : linrel (11 * Ns) M w u.
Hypothesis HF : forall b l, (b < Ns)%nat -> (l < 3)%nat -> w (kstart Ns KU b + l)%nat = F b l.
Hypothesis HT : forall b l, (b < Ns)%nat -> (l < 3)%nat -> w (kstart Ns KO b + l)%nat = T b l.
Hypothesis HS : forall b l, (b < Ns)%nat -> (l < 5)%nat -> w (kstart Ns KS b + l)%nat = 0.

Lemma self_at k1 k2 b i j : k1 <> KB -> k2 <> KB -> (b < Ns)%nat -> (i < ksize k1)%nat -> (j < ksize k2)%nat ->
  M (kstart Ns k1 b + i)%nat (kstart Ns k2 b + j)%nat = self_value k1 k2 (a b) mu i j.
Proof.
  intros N1 N2 Hb Hi Hj. unfold M, Ns. rewrite sphere_ent by assumption.
  unfold minf_loop. rewrite loop_self by (try assumption; destruct k1, k2; cbn; congruence || assumption). reflexivity.
Qed.
Lemma pair_at k1 k2 b b' i j : k1 <> KB -> k2 <> KB -> (b < Ns)%nat -> (b' < Ns)%nat -> b <> b' -> (i < ksize k1)%nat -> (j < ksize k2)%nat ->
  M (kstart Ns k1 b + i)%nat (kstart Ns k2 b' + j)%nat
  = pmob k1 k2 (fst (pair_geometry (x b) (x b') (a b) (a b'))) (used_separation (x b) (x b') (a b) (a b')) (a b) (a b') c mu i j.
Proof.
  intros N1 N2 Hb Hb' Ne Hi Hj. unfold M, Ns. rewrite sphere_ent by assumption.
  pose proof (Ha b Hb). pose proof (Ha b' Hb'). pose proof (Hx b b' Hb Hb' Ne) as X.
  destruct (geom_used (x b) (x b') (a b) (a b') ltac:(lra) X) as (G1 & _ & _).
  unfold minf_loop. rewrite loop_pair.
  - unfold bead_mobility. fold x a. rewrite G1. destruct k1, k2; congruence || reflexivity.
  - destruct k1; cbn; congruence || assumption.
  - destruct k2; cbn; congruence || assumption.
  - exact Hi.
  - exact Hj.
  - exact Ne.
  - fold a. lra.
  - fold x. pose proof e8. unfold tiny in *. lra.
Qed.
Lemma row_of k b i : k <> KB -> (b < Ns)%nat -> (i < ksize k)%nat ->
  u (kstart Ns k b + i)%nat = rsum Ns (fun j => rsum 3 (fun l => M (kstart Ns k b + i)%nat (kstart Ns KU j + l)%nat * F j l)
     + rsum 3 (fun l => M (kstart Ns k b + i)%nat (kstart Ns KO j + l)%nat * T j l)).
Proof.
  intros Nk Hb Hi.
  assert (R : (kstart Ns k b + i < 11 * Ns)%nat) by (destruct k; try congruence; cbn [kstart ksize] in *; lia).
  rewrite (HM _ R). replace (11 * Ns)%nat with (11 * Ns + 6 * 0)%nat by lia. rewrite rsum_blocks. cbn [Nat.mul]. change (rsum 0 _) with 0. rewrite Rplus_0_r.
  rewrite (rsum_zero Ns (fun q => rsum 5 (fun l => M (kstart Ns k b + i)%nat (kstart Ns KS q + l)%nat * w (kstart Ns KS q + l)%nat))).
  2:{ intros j Hj. apply rsum_zero. intros l Hl. rewrite HS by assumption. ring. }
  rewrite Rplus_0_r, <- rsum_plus. apply rsum_ext. intros j Hj. f_equal; apply rsum_ext; intros l Hl; [rewrite HF|rewrite HT]; try assumption; reflexivity.
Qed.
Theorem velocity_of b l : (b < Ns)%nat -> (l < 3)%nat -> u (kstart Ns KU b + l)%nat = pushed_velocity mu Ns x a F T b l.
Proof.
  intros Hb Hl. rewrite (row_of KU b l ltac:(discriminate) Hb Hl). unfold pushed_velocity.
  assert (E : F b l / (6 * PI * mu * a b) = rsum Ns (fun j => delta b j * (F j l / (6 * PI * mu * a j)))) by (symmetry; apply (rsum_delta_l Ns b (fun j => F j l / (6 * PI * mu * a j))); exact Hb).
  rewrite E, <- rsum_plus. apply rsum_ext. intros j Hj. unfold delta. destruct (Nat.eqb_spec b j) as [<-|Ne].
  - rewrite (rsum_ext 3 _ (fun m => delta l m * (F b m / (6 * PI * mu * a b)))).
    2:{ intros m Hm. rewrite self_at by (try assumption; discriminate). cbn [self_value]. unfold Rdiv. ring. }
    rewrite (rsum_delta_l 3 l (fun m => F b m / (6 * PI * mu * a b)) Hl).
    rewrite rsum_zero; [ring|]. intros m Hm. rewrite self_at by (try assumption; discriminate). cbn [self_value]. ring.
  - rewrite <- swept_sum. pose proof (Ha b Hb). pose proof (Ha j Hj).
    rewrite <- (uu (x b) (x j) (a b) (a j) mu (F j)) by (try assumption; try lra; apply Hx; assumption).
    rewrite <- (uo (x b) (x j) (a b) (a j) mu (T j)) by (try assumption; try lra; apply Hx; assumption).
    rewrite Rmult_0_l, Rplus_0_l. f_equal; apply rsum_ext; intros m Hm; rewrite pair_at by (try assumption; discriminate); reflexivity.
Qed.
Theorem spin_of b l : (b < Ns)%nat -> (l < 3)%nat -> u (kstart Ns KO b + l)%nat = pushed_spin mu Ns x a F T b l.
Proof.
  intros Hb Hl. rewrite (row_of KO b l ltac:(discriminate) Hb Hl). unfold pushed_spin.
  assert (E : T b l / (8 * PI * mu * a b ^ 3) = rsum Ns (fun j => delta b j * (T j l / (8 * PI * mu * a j ^ 3)))) by (symmetry; apply (rsum_delta_l Ns b (fun j => T j l / (8 * PI * mu * a j ^ 3))); exact Hb).
  rewrite E, <- rsum_plus. apply rsum_ext. intros j Hj. unfold delta. destruct (Nat.eqb_spec b j) as [<-|Ne].
  - rewrite (rsum_ext 3 (fun m => M _ (kstart Ns KO b + m)%nat * T b m) (fun m => delta l m * (T b m / (8 * PI * mu * a b ^ 3)))).
    2:{ intros m Hm. rewrite self_at by (try assumption; discriminate). cbn [self_value]. unfold Rdiv. ring. }
    rewrite (rsum_delta_l 3 l (fun m => T b m / (8 * PI * mu * a b ^ 3)) Hl).
    rewrite rsum_zero; [ring|]. intros m Hm. rewrite self_at by (try assumption; discriminate). cbn [self_value]. ring.
  - rewrite <- swirled_sum. pose proof (Ha b Hb). pose proof (Ha j Hj).
    rewrite <- (ou (x b) (x j) (a b) (a j) mu (F j)) by (try assumption; try lra; apply Hx; assumption).
    rewrite <- (oo (x b) (x j) (a b) (a j) mu (T j)) by (try assumption; try lra; apply Hx; assumption).
    rewrite Rmult_0_l, Rplus_0_l. f_equal; apply rsum_ext; intros m Hm; rewrite pair_at by (try assumption; discriminate); reflexivity.
Qed.
Theorem strain_of b m : (b < Ns)%nat -> (m < 5)%nat -> u (kstart Ns KS b + m)%nat = condense_idx (pushed_strain mu Ns x a F T b) m.
Proof.
  intros Hb Hm. rewrite (row_of KS b m ltac:(discriminate) Hb Hm).
  transitivity (rsum Ns (fun j => condense_idx (fun k l => if Nat.eqb b j then 0 else strained mu (x b) (x j) (a b) (a j) (F j) (T j) k l) m)).
  - apply rsum_ext. intros j Hj. destruct (Nat.eqb_spec b j) as [<-|Ne].
    + rewrite !rsum_zero; [unfold condense_idx, rsum; ring| |]; intros l Hl; rewrite self_at by (try assumption; discriminate); cbn [self_value]; ring.
    + pose proof (Ha b Hb). pose proof (Ha j Hj).
      rewrite (condense_ext _ (fun k l => strained mu (x b) (x j) (a b) (a j) (F j) (v3 0 0 0) k l + strained mu (x b) (x j) (a b) (a j) (v3 0 0 0) (T j) k l)) by (intros; symmetry; apply strained_sum; assumption).
      transitivity (condense_idx (strained mu (x b) (x j) (a b) (a j) (F j) (v3 0 0 0)) m + condense_idx (strained mu (x b) (x j) (a b) (a j) (v3 0 0 0) (T j)) m); [|unfold condense_idx, rsum; ring].
      rewrite <- (su (x b) (x j) (a b) (a j) mu (F j)) by (try assumption; try lra; apply Hx; assumption).
      rewrite <- (so (x b) (x j) (a b) (a j) mu (T j)) by (try assumption; try lra; apply Hx; assumption).
      f_equal; apply rsum_ext; intros l Hl; rewrite pair_at by (try assumption; discriminate); reflexivity.
  - unfold condense_idx, pushed_strain. rewrite rsum_swap. apply rsum_ext. intros k Hk. rewrite rsum_swap. apply rsum_ext. intros l Hl. apply rsum_scal_l.
Qed.
End Rows.
