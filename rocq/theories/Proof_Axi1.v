(** Matrices of configurations that are symmetric about the x axis. *)
From Coq Require Import Reals Arith Bool List Lia Lra FunctionalExtensionality.
From Verif Require Import Base Model_Pack Model_Mob Model_Layout Model_Minf Model_Subtract
  Spec_Layout Spec_Minf Spec_R2B Spec_Rotate Proof_Layout
  Proof_Rotate1 Proof_Rotate2 Proof_Rotate3 Proof_Rotate4 Proof_Rotate5 Proof_Rotate8 Proof_Rotate9.
Import ListNotations.
Local Open Scope R_scope.

(** Sums of functions that vanish outside a block. *)
Lemma rsum_support n s m f : (s + m <= n)%nat -> (forall t, (t < n)%nat -> (t < s \/ s + m <= t)%nat -> f t = 0) ->
  rsum n f = rsum m (fun b => f (s + b)%nat).
Proof.
  intros H Z. replace n with (s + m + (n - s - m))%nat by lia. rewrite rsum_app, rsum_app.
  rewrite (rsum_zero s) by (intros; apply Z; lia).
  rewrite (rsum_zero (n - s - m)) by (intros; apply Z; lia). ring.
Qed.

Definition intertwines (Q : mat) (k1 k2 : kind) (B : nat -> nat -> R) : Prop :=
  forall i j, (i < ksize k1)%nat -> (j < ksize k2)%nat ->
    rsum (ksize k2) (fun b => B i b * tmat Q k2 b j) = rsum (ksize k1) (fun a => tmat Q k1 i a * B a j).

Lemma commutes_blocks Q Ns Nd M M' k1 p k2 q i j : commutes Q Ns Nd M M' ->
  kvalid Ns Nd k1 p -> kvalid Ns Nd k2 q -> (i < ksize k1)%nat -> (j < ksize k2)%nat ->
  rsum (ksize k2) (fun b => ent Ns M' k1 p k2 q i b * tmat Q k2 b j) = rsum (ksize k1) (fun a => tmat Q k1 i a * ent Ns M k1 p k2 q a j).
Proof.
  intros H V1 V2 Hi Hj. set (c := (kstart Ns k2 q + j)%nat).
  assert (Hc : (c < 11 * Ns + 6 * Nd)%nat) by (apply block_range; assumption).
  pose proof (H (fun t => delta t c) (kstart Ns k1 p + i)%nat (block_range _ _ _ _ _ V1 Hi)) as E.
  rewrite (turn_at Q Ns Nd) in E by assumption.
  transitivity (mvec (11 * Ns + 6 * Nd) M' (turn_vec Q Ns (fun t => delta t c)) (kstart Ns k1 p + i)%nat).
  - unfold mvec. assert (L : (kstart Ns k2 q + ksize k2 <= 11 * Ns + 6 * Nd)%nat).
    { pose proof (block_range Ns Nd k2 q (ksize k2 - 1) V2) as Z. destruct k2; cbn [ksize] in *; specialize (Z ltac:(lia)); lia. }
    rewrite (rsum_support _ (kstart Ns k2 q) (ksize k2) (fun t => M' (kstart Ns k1 p + i)%nat t * turn_vec Q Ns (fun t0 => delta t0 c) t)); [|exact L|].
    + apply rsum_ext. intros b Hb. unfold ent. f_equal. rewrite (turn_at Q Ns Nd) by assumption.
      rewrite (rsum_ext _ _ (fun a => tmat Q k2 b a * delta a j)); [symmetry; apply rsum_delta_r; assumption|].
      intros a Ha. f_equal. unfold c, delta. destruct (Nat.eqb_spec (kstart Ns k2 q + a) (kstart Ns k2 q + j)), (Nat.eqb_spec a j); lia || reflexivity.
    + intros t Ht O. destruct (block_cover Ns Nd t Ht) as (k & r & b & V & Hb & ->). rewrite (turn_at Q Ns Nd) by assumption.
      rewrite rsum_zero; [ring|]. intros a Ha. unfold delta, c. destruct (Nat.eqb_spec (kstart Ns k r + a) (kstart Ns k2 q + j)) as [E0|_]; [|ring].
      destruct (block_inj _ _ _ _ _ _ _ _ V V2 Ha Hj E0) as (-> & -> & _). lia.
  - rewrite E. apply rsum_ext. intros a Ha. f_equal. unfold mvec, ent, c. rewrite rsum_delta_r by exact Hc. reflexivity.
Qed.

(** The symmetries used. *)
Definition mirror_y : mat := fun i j =>
  match i, j with 0%nat, 0%nat => 1 | 1%nat, 1%nat => -1 | 2%nat, 2%nat => 1 | _, _ => 0 end.
Definition swap_yz : mat := fun i j =>
  match i, j with 0%nat, 0%nat => 1 | 1%nat, 2%nat => 1 | 2%nat, 1%nat => 1 | _, _ => 0 end.
Definition turn_x : mat := fun i j =>
  match i, j with 0%nat, 0%nat => 1 | 1%nat, 1%nat => / sqrt 2 | 1%nat, 2%nat => - / sqrt 2 | 2%nat, 1%nat => / sqrt 2 | 2%nat, 2%nat => / sqrt 2
  | _, _ => 0 end.
Lemma is2 : / sqrt 2 * / sqrt 2 = / 2.
Proof. rewrite <- Rinv_mult. f_equal. apply s2_sq. Qed.
Lemma mirror_y_orth : orthogonal mirror_y.
Proof. intros i j Hi Hj. split; unfold mmul, mtr, mirror_y, delta, rsum; idx3 Hi; idx3 Hj; cbn [Nat.eqb]; ring. Qed.
Lemma swap_orth : orthogonal swap_yz.
Proof. intros i j Hi Hj. split; unfold mmul, mtr, swap_yz, delta, rsum; idx3 Hi; idx3 Hj; cbn [Nat.eqb]; ring. Qed.
Lemma turn_x_orth : orthogonal turn_x.
Proof.
  pose proof is2 as H. intros i j Hi Hj. split; unfold mmul, mtr, turn_x, delta, rsum; idx3 Hi; idx3 Hj; cbn [Nat.eqb]; try ring;
  ring_simplify; rewrite <- ?Rsqr_pow2; unfold Rsqr; lra.
Qed.
Lemma mirror_y_det : det3 mirror_y = -1. Proof. unfold det3, mirror_y. ring. Qed.
Lemma swap_det : det3 swap_yz = -1. Proof. unfold det3, swap_yz. ring. Qed.

(** Condensed components. *)
Lemma cond0 f : condense_idx f 0 = hs3p1 * f 0%nat 0%nat + hs3m1 * f 1%nat 1%nat.
Proof. unfold condense_idx, contraction, rsum. ring. Qed.
Lemma cond1 f : condense_idx f 1 = s2 * f 0%nat 1%nat.
Proof. unfold condense_idx, contraction, rsum. ring. Qed.
Lemma cond2 f : condense_idx f 2 = hs3m1 * f 0%nat 0%nat + hs3p1 * f 1%nat 1%nat.
Proof. unfold condense_idx, contraction, rsum. ring. Qed.
Lemma cond3 f : condense_idx f 3 = s2 * f 0%nat 2%nat.
Proof. unfold condense_idx, contraction, rsum. ring. Qed.
Lemma cond4 f : condense_idx f 4 = s2 * f 1%nat 2%nat.
Proof. unfold condense_idx, contraction, rsum. ring. Qed.
Ltac conds := rewrite ?cond0, ?cond1, ?cond2, ?cond3, ?cond4.

Ltac idx5 H i := destruct i as [|[|[|[|[|i]]]]]; [| | | | |cbn in H; lia].

(** How the condensed components transform. *)
Definition mirror_y5 (m a : nat) : R := if Nat.eqb m a then (match m with 1%nat | 4%nat => -1 | _ => 1 end) else 0.
Definition mirror_z5 (m a : nat) : R := if Nat.eqb m a then sgn5 m else 0.
Definition swap5 (m a : nat) : R :=
  match m, a with
  | 0%nat, 0%nat => sqrt 3 / 2 | 0%nat, 2%nat => - (1 / 2) | 2%nat, 0%nat => - (1 / 2) | 2%nat, 2%nat => - (sqrt 3 / 2)
  | 1%nat, 3%nat => 1 | 3%nat, 1%nat => 1 | 4%nat, 4%nat => 1 | _, _ => 0
  end.
Ltac t5 H3 H2 N2 := unfold rot5; conds; unfold rot2, tensor_of, get2, uncondense1, delta, rsum, hs3p1, hs3m1, s2, s3;
  cbn [nth Nat.eqb mirror_y swap_yz mirror_z turn_x].
Lemma mirror_y5_ok m a : (m < 5)%nat -> (a < 5)%nat -> tmat mirror_y KS m a = mirror_y5 m a.
Proof.
  intros Hm Ha. cbn [tmat]. pose proof s3_sq as H3. pose proof s2_sq as H2. pose proof s2_nz as N2.
  idx5 Hm m; idx5 Ha a; t5 H3 H2 N2; unfold mirror_y5; cbn [Nat.eqb]; try (field; assumption); nra.
Qed.
Lemma mirror_z5_ok m a : (m < 5)%nat -> (a < 5)%nat -> tmat mirror_z KS m a = mirror_z5 m a.
Proof.
  intros Hm Ha. cbn [tmat]. rewrite rot5_mirror by assumption. unfold mirror_z5, delta. rewrite (Nat.eqb_sym m a). destruct (Nat.eqb a m); ring.
Qed.
Lemma swap5_ok m a : (m < 5)%nat -> (a < 5)%nat -> tmat swap_yz KS m a = swap5 m a.
Proof.
  intros Hm Ha. cbn [tmat]. pose proof s3_sq as H3. pose proof s2_sq as H2. pose proof s2_nz as N2.
  idx5 Hm m; idx5 Ha a; t5 H3 H2 N2; unfold swap5; try (field; assumption); nra.
Qed.
(** The entries used of the rotation by half a right angle. *)
Lemma turn5_40 : tmat turn_x KS 4%nat 0%nat = s2 / 2 * ((sqrt 3 - 1) / 2).
Proof.
  cbn [tmat]. pose proof is2 as H. pose proof s2_nz as N2. t5 H H N2. unfold Rdiv. set (w := sqrt 3). set (v := / sqrt 2) in *. clearbody v w.
  match goal with |- ?a = _ => replace a with (sqrt 2 * (v * v) * ((w - 3) / 6 * 2 + (w + 3) / 6)) by field end.
  rewrite H. field.
Qed.
Lemma turn5_42 : tmat turn_x KS 4%nat 2%nat = s2 / 2 * ((sqrt 3 + 1) / 2).
Proof.
  cbn [tmat]. pose proof is2 as H. pose proof s2_nz as N2. t5 H H N2. unfold Rdiv. set (w := sqrt 3). set (v := / sqrt 2) in *. clearbody v w.
  match goal with |- ?a = _ => replace a with (sqrt 2 * (v * v) * ((w + 3) / 6 * 2 + (w - 3) / 6)) by field end.
  rewrite H. field.
Qed.
