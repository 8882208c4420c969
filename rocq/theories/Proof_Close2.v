(** Remaining statements about close pairs. *)
From Coq Require Import Reals Arith ZArith Bool List Lia Lra FunctionalExtensionality.
From Verif Require Import Base Model_Mob Model_Close Model_Pack Model_Minf Model_R2B Spec_R2B Spec_Close
  Spec_Layout Spec_Minf Proof_R2B3 Proof_R2B4 Proof_Close Proof_Periodic Proof_Periodic2.
Import ListNotations.
Local Open Scope R_scope.

Lemma free_in_length x a n cf t : (forall b, (b < n)%nat -> 0 < a b) ->
  In t (close_particles_free x a n cf) -> norm (cp_disp t) = cp_dist t.
Proof.
  intros Ha Ht. apply free_in in Ht. destruct Ht as (H1 & _ & E). rewrite E at 1. rewrite free_disp_length.
  - rewrite E. reflexivity.
  - pose proof (Ha (cp1 t) ltac:(lia)). pose proof (Ha (cp2 t) ltac:(lia)). lra.
Qed.

Lemma large_particles_missed :
  exists inv x a box,
    is_inv 3 (diag3 box) (inv (diag3 box)) /\
    (forall k, 0 < box k) /\ (forall b : nat, 0 < a b) /\
    2 * norm (periodic_disp inv x box (fun _ => 0) (fun _ _ => 0) 0 1) / (a 0%nat + a 1%nat) <= 2 * 2 /\
    ~ exists t, In t (close_particles_periodic inv x a 2 2 box (fun _ => 0) (fun _ _ => 0)) /\ cp1 t = 0%nat /\ cp2 t = 1%nat.
Proof.
  exists inv100, big_x, (fun _ => 2), box100. destruct big_missed as [H1 H2].
  split; [apply inv100_ok|]. split; [intros; unfold box100; lra|]. split; [intros; lra|]. split; [exact H1|].
  intros (t & Ht & E1 & E2). specialize (H2 t Ht). lia.
Qed.

Lemma sheared_pair_missed :
  exists inv x box g,
    let B := shear_basis_vectors (diag3 box) box (shear_O g) (shear_E g) in
    is_inv 3 B (inv B) /\ is_inv 3 (diag3 box) (inv (diag3 box)) /\ (forall k, 0 < box k) /\
    2 * norm (vsub (x 1%nat) (x 0%nat)) / (1 + 1) < 2 * 3 /\
    ~ exists t, In t (close_particles_periodic inv x (fun _ => 1) 2 3 box (shear_O g) (shear_E g)) /\ cp1 t = 0%nat /\ cp2 t = 1%nat.
Proof.
  exists inv_slant, slant_x, box10, (1 / 2). cbv zeta. destruct inv_slant_ok as [H1 H2]. destruct slant_missed as [H3 H4].
  split; [exact H2|]. split; [exact H1|]. split; [intros; unfold box10; lra|]. split.
  - lra.
  - intros (t & Ht & E1 & E2). specialize (H4 t Ht). lia.
Qed.

Lemma isclose_refl y : isclose y y = true.
Proof.
  unfold isclose. apply Rleb_spec. replace (y - y) with 0 by ring. rewrite Rabs_R0.
  assert (0 < / 10 ^ 8) by (apply Rinv_0_lt_compat, pow_lt; lra).
  assert (0 < / 10 ^ 5) by (apply Rinv_0_lt_compat, pow_lt; lra). pose proof (Rabs_pos y). nra.
Qed.

Lemma bead_bead_off_diagonal :
  exists sc x a M,
    generate_R2Bexact_loop sc [1] false a 0 1 (close_particles_free x a 2 2) = Some M /\ M 0%nat 0%nat <> 0 /\ M 0%nat 3%nat = 0.
Proof.
  set (sc := fun _ _ : nat => fun _ : R => fun _ : nat => 1).
  set (x := fun i : nat => v3 (3 * INR i) 0 0). set (a := fun _ : nat => 1).
  assert (Ha : forall b, (b < 0 + 2 * 1)%nat -> 0 < a b) by (intros; unfold a; lra).
  destruct (generate_R2Bexact_loop sc [1] false a 0 1 (close_particles_free x a 2 2)) as [M|] eqn:E.
  2:{ exfalso. apply (loop_fails_iff sc [1] false a 0 1 _ (0 + 2 * 1)) in E.
      - destruct E as (t & Ht & E). apply free_in in Ht. destruct Ht as (_ & _ & Et).
        assert (R1 : cp_ratio t = 1) by (rewrite Et; cbn [cp_ratio free_record]; unfold a; field).
        rewrite R1 in E. replace (1 / 1) with 1 in E by field.
        unfold lam_index, lam_index_from in E. rewrite isclose_refl in E. destruct E; discriminate.
      - apply free_close_list. lra.
      - exact Ha. }
  exists sc, x, a, M. split; [exact E|].
  assert (S01 : scaled_distance x a 0 1 = 3).
  { unfold scaled_distance, vsub, norm, v3, x, v3, a. replace (_ ^ 2 + _ + _) with (3 ^ 2) by (simpl; ring).
    rewrite sqrt_pow2; lra. }
  assert (D01 : direction x 0 1 0%nat = 1).
  { unfold direction. replace (norm (vsub (x 1%nat) (x 0%nat))) with 3.
    - unfold vscal, vsub, x, v3. simpl. lra.
    - unfold norm, vsub, x, v3. replace (_ ^ 2 + _ + _) with (3 ^ 2) by (simpl; ring). rewrite sqrt_pow2; lra. }
  assert (Hcf : 0 < 2) by lra.
  assert (Id : forall n : nat, (n <= n)%nat) by lia.
  pose proof (free_loop_entry sc [1] false x a 0 1 2 KB 0 KB 0 0 0 Hcf Ha) as Q0.
  pose proof (free_loop_entry sc [1] false x a 0 1 2 KB 0 KB 1 0 0 Hcf Ha) as Q1.
  split.
  - specialize (Q0 ltac:(simpl; lia) ltac:(simpl; lia) ltac:(simpl; lia) ltac:(simpl; lia) (or_intror (or_introl (Id 0%nat))) M E).
    change (kstart 0 KB 0 + 0)%nat with 0%nat in Q0. rewrite Q0. unfold free_resistance. cbn [Nat.eqb].
    cbn [rsum Nat.add Nat.mul negb andb Nat.eqb].
    destruct (Rlt_dec (scaled_distance x a 0 1) (2 * 2)) as [_|H]; [|exfalso; rewrite S01 in H; lra].
    unfold self_block. cbn [mrank Nat.leb]. unfold two_body, trans. rewrite D01. unfold sc, a, delta. cbn [Nat.eqb].
    pose proof PI_RGT_0. lra.
  - specialize (Q1 ltac:(simpl; lia) ltac:(simpl; lia) ltac:(simpl; lia) ltac:(simpl; lia)
      (or_intror (or_introl (Nat.le_succ_diag_r 0))) M E).
    change (kstart 0 KB 0 + 0)%nat with 0%nat in Q1. change (kstart 0 KB 1 + 0)%nat with 3%nat in Q1. rewrite Q1. reflexivity.
Qed.
