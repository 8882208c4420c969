(** Widely spaced beads: the whole matrix. *)
From Coq Require Import Reals Arith Bool List Lia Lra FunctionalExtensionality.
From Verif Require Import Base Model_Pack Model_Mob Model_Layout Model_Minf Model_L Model_Close Model_R2B Spec_Layout Spec_Minf Spec_Convert Spec_Posdef Spec_Rescale Spec_Wide
  Spec_R2B Spec_Close Proof_Layout Proof_Minf Proof_Mob Proof_Mob2 Proof_L Proof_Minf2 Proof_Minf3 Proof_Minf4 Proof_Posdef Proof_Rescale1 Proof_Rescale2 Proof_Wide1 Proof_Wide2.
Import ListNotations.
Local Open Scope R_scope.

Ltac mpos := repeat (match goal with |- 0 < _ * _ => apply Rmult_lt_0_compat end); try lra.
Lemma kvalid_beads Ns Nd k p : kvalid Ns Nd k p -> (p < Ns + 2 * Nd)%nat.
Proof. destruct k; cbn; lia. Qed.
Lemma kw_pos a0 k : 0 < a0 -> 0 < kw a0 k. Proof. intros. destruct k; cbn; lra. Qed.

Section Loop.
Variables (bb : bool) (x : nat -> vec) (a : nat -> R) (Ns Nd : nat) (mu a0 A : R).
Let n := (11 * Ns + 6 * Nd)%nat.
Let nb := (Ns + 2 * Nd)%nat.
Let c := 1 / (8 * PI * mu).
Let M := generate_Minfinity_loop bb x a Ns Nd c mu.
Let L := 500 * INR n * A ^ 3 * a0.
Hypothesis Hmu : 0 < mu.
Hypothesis Ha0 : 0 < a0.
Hypothesis Ha : radii_within nb a a0 A.
Hypothesis Hx : spaced nb x L.
Hypothesis Ht : spaced nb x (/ 10 ^ 10).

Lemma c_pos : 0 < c. Proof. unfold c. pose proof PI_RGT_0. apply Rdiv_lt_0_compat; [lra|]. mpos. Qed.
Lemma a_pos b : (b < nb)%nat -> 0 < a b. Proof. intros Hb. destruct (Ha b Hb). lra. Qed.
Lemma A_ge b : (b < nb)%nat -> 1 <= A. Proof. intros Hb. destruct (Ha b Hb). apply Rmult_le_reg_r with a0; lra. Qed.
Lemma x_distinct : distinct_beads nb x a. Proof. split; [exact a_pos|exact Ht]. Qed.

Lemma diag_low k b i : kvalid Ns Nd k b -> (i < ksize k)%nat -> c / (A ^ 3 * a0) <= kw a0 k * kw a0 k * ent Ns M k b k b i i.
Proof.
  intros V Hi. unfold M. rewrite loop_self by assumption. pose proof (kvalid_beads _ _ _ _ V) as Hb.
  destruct (Ha b Hb) as [H1 H2]. pose proof (a_pos b Hb) as H3. pose proof (A_ge b Hb) as H4. pose proof PI_RGT_0 as HP.
  assert (D : delta i i = 1) by (unfold delta; rewrite Nat.eqb_refl; reflexivity).
  assert (P3 : a b ^ 3 <= (A * a0) ^ 3) by (apply pow_incr; lra).
  assert (E1 : 0 < a b ^ 3) by (apply pow_lt; lra).
  assert (EA : 0 < A ^ 3) by (apply pow_lt; lra).
  assert (I3 : / (A ^ 3 * a0) <= a0 * a0 * / a b ^ 3).
  { apply Rmult_le_reg_r with (a b ^ 3); [exact E1|]. rewrite Rmult_assoc, Rinv_l, Rmult_1_r by lra.
    apply Rmult_le_reg_l with (A ^ 3 * a0); [apply Rmult_lt_0_compat; lra|]. rewrite <- Rmult_assoc, Rinv_r, Rmult_1_l by (apply Rgt_not_eq, Rmult_lt_0_compat; lra).
    replace (A ^ 3 * a0 * (a0 * a0)) with ((A * a0) ^ 3) by ring. exact P3. }
  assert (I1 : / (A ^ 3 * a0) <= / a b).
  { apply Rinv_le_contravar; [lra|]. assert (A <= A ^ 3) by (assert (1 <= A * A) by nra; nra). apply Rle_trans with (A * a0); [lra|]. apply Rmult_le_compat_r; lra. }
  pose proof c_pos as CP.
  assert (X1 : 1 * 1 * (1 / (6 * PI * mu * a b)) = c * (4 / 3 * / a b)) by (unfold c; field; repeat split; lra).
  assert (X2 : a0 * a0 * (1 / (8 * PI * mu * a b ^ 3)) = c * (a0 * a0 * / a b ^ 3)) by (unfold c; field; repeat split; lra).
  assert (X3 : a0 * a0 * (1 / (20 / 3 * PI * mu * a b ^ 3)) = c * (6 / 5 * (a0 * a0 * / a b ^ 3))) by (unfold c; field; repeat split; lra).
  assert (IA : 0 < / a b) by (apply Rinv_0_lt_compat; lra).
  assert (IB : 0 < a0 * a0 * / a b ^ 3) by (mpos; apply Rinv_0_lt_compat; exact E1).
  unfold Rdiv at 1.
  destruct k; cbn [kw self_value]; rewrite D, ?X1, ?X2, ?X3; apply Rmult_le_compat_l; lra.
Qed.
Lemma self_off k1 k2 b i j : kvalid Ns Nd k1 b -> kvalid Ns Nd k2 b -> (i < ksize k1)%nat -> (j < ksize k2)%nat ->
  (kstart Ns k1 b + i <> kstart Ns k2 b + j)%nat -> ent Ns M k1 b k2 b i j = 0.
Proof.
  intros V1 V2 Hi Hj Ne. unfold M. rewrite loop_self by assumption.
  assert (D : k1 = k2 -> delta i j = 0).
  { intros <-. unfold delta. destruct (Nat.eqb_spec i j) as [->|_]; [congruence|reflexivity]. }
  destruct k1, k2; cbn [self_value]; try reflexivity; rewrite D by reflexivity; unfold Rdiv; ring.
Qed.
Lemma cross_small k1 p k2 q i j : kvalid Ns Nd k1 p -> kvalid Ns Nd k2 q -> (i < ksize k1)%nat -> (j < ksize k2)%nat -> p <> q ->
  Rabs (kw a0 k1 * kw a0 k2 * ent Ns M k1 p k2 q i j) <= c * (472 / L).
Proof.
  intros V1 V2 Hi Hj Ne. pose proof (kvalid_beads _ _ _ _ V1) as Hp. pose proof (kvalid_beads _ _ _ _ V2) as Hq.
  pose proof (Hx p q Hp Hq Ne) as HL. pose proof (Ht p q Hp Hq Ne) as HT. destruct (Ha p Hp) as [P1 P2]. destruct (Ha q Hq) as [Q1 Q2]. pose proof (A_ge p Hp) as GA.
  pose proof (a_pos p Hp) as AP. pose proof (a_pos q Hq) as AQ. pose proof c_pos as CP.
  assert (N1 : 1 <= INR n).
  { change 1 with (INR 1). apply le_INR. unfold n, nb in *. lia. }
  assert (LA : A * a0 * 500 <= L).
  { unfold L. assert (A <= A ^ 3) by (assert (1 <= A * A) by nra; nra). assert (A <= INR n * A ^ 3) by nra.
    replace (500 * INR n * A ^ 3 * a0) with ((INR n * A ^ 3) * a0 * 500) by ring. apply Rmult_le_compat_r; [lra|]. apply Rmult_le_compat_r; lra. }
  assert (LP : 0 < L) by nra.
  set (s := norm (vsub (x p) (x q))) in *.
  assert (AA : a0 <= A * a0) by nra.
  unfold M. rewrite loop_entry by (assumption || exact x_distinct).
  assert (G : pair_geometry (x p) (x q) (a p) (a q) = (vsub (x p) (x q), s)).
  { unfold pair_geometry. fold s. destruct (Rlt_dec (/ 10 ^ 8) s); [|reflexivity]. destruct (Rlt_dec _ _) as [H|_]; [|reflexivity]. exfalso.
    apply (Rmult_lt_compat_r (a p + a q)) in H; [|lra]. unfold Rdiv in H. rewrite Rmult_assoc, Rinv_l, Rmult_1_r in H by lra. nra. }
  assert (Z : Rabs 0 <= c * (472 / L)).
  { rewrite Rabs_R0. apply Rmult_le_pos; [lra|]. unfold Rdiv. apply Rmult_le_pos; [lra|]. left. apply Rinv_0_lt_compat. exact LP. }
  assert (X : Rabs (kw a0 k1 * kw a0 k2 * pmob k1 k2 (vsub (x p) (x q)) s (a p) (a q) c mu i j) <= c * (472 / L)).
  { pose proof (kw_pos a0 k1 Ha0) as K1. pose proof (kw_pos a0 k2 Ha0) as K2.
    apply Rle_trans with (kw a0 k1 * kw a0 k2 * (c * (472 / (s * kw a0 k1 * kw a0 k2)))).
    - apply B_scal; [left; apply Rmult_lt_0_compat; assumption|]. apply b_pmob; try assumption; try reflexivity; unfold tiny; lra.
    - replace (kw a0 k1 * kw a0 k2 * (c * (472 / (s * kw a0 k1 * kw a0 k2)))) with (c * (472 / s)) by (field; repeat split; lra).
      apply Rmult_le_compat_l; [lra|]. unfold Rdiv. apply Rmult_le_compat_l; [lra|]. apply Rinv_le_contravar; lra. }
  unfold bead_mobility. rewrite G. cbn [fst snd].
  destruct k1, k2; try exact X. destruct (bb || Nat.eqb p q)%bool; [exact X|]. rewrite Rmult_0_r. exact Z.
Qed.
Theorem loop_pos_def : pos_def n M.
Proof.
  destruct (Nat.eq_dec n 0) as [E|Hn].
  { apply pos_def_of. rewrite E. intros z (i & Hi & _). lia. }
  assert (NB : (0 < nb)%nat) by (unfold n, nb in *; lia).
  pose proof (A_ge 0%nat NB) as GA. pose proof c_pos as CP.
  assert (N1 : 1 <= INR n) by (change 1 with (INR 1); apply le_INR; lia).
  assert (E3 : 0 < A ^ 3) by (apply pow_lt; lra).
  assert (LP : 0 < L) by (unfold L; mpos).
  apply (pos_def_weights n M (fun i j => weight a0 Ns i * weight a0 Ns j * M i j) (weight a0 Ns)).
  - intros i Hi. apply Rgt_not_eq, weight_pos. exact Ha0.
  - reflexivity.
  - apply (dominant n _ (c / (A ^ 3 * a0)) (c * (472 / L))).
    + apply Rmult_le_pos; [lra|]. unfold Rdiv. apply Rmult_le_pos; [lra|]. left. apply Rinv_0_lt_compat. exact LP.
    + intros i Hi. destruct (block_cover Ns Nd i Hi) as (k & b & t & V & Hk & ->). rewrite (weight_at a0 Ns Nd k b t V Hk). apply diag_low; assumption.
    + intros i j Hi Hj Ne. destruct (block_cover Ns Nd i Hi) as (k & b & t & V & Hk & ->). destruct (block_cover Ns Nd j Hj) as (k' & b' & t' & V' & Hk' & ->).
      rewrite (weight_at a0 Ns Nd k b t V Hk), (weight_at a0 Ns Nd k' b' t' V' Hk').
      destruct (Nat.eq_dec b b') as [<-|Nb]; [|apply cross_small; assumption].
      change (M (kstart Ns k b + t)%nat (kstart Ns k' b + t')%nat) with (ent Ns M k b k' b t t'). rewrite self_off by assumption.
      rewrite Rmult_0_r, Rabs_R0. apply Rmult_le_pos; [lra|]. unfold Rdiv. apply Rmult_le_pos; [lra|]. left. apply Rinv_0_lt_compat. exact LP.
    + unfold L. replace (INR n * (c * (472 / (500 * INR n * A ^ 3 * a0)))) with (472 / 500 * (c / (A ^ 3 * a0))) by (field; repeat split; lra).
      assert (0 < c / (A ^ 3 * a0)) by (apply Rdiv_lt_0_compat; [exact CP|apply Rmult_lt_0_compat; lra]). lra.
Qed.
End Loop.

(** The dumbbell coordinates. *)
Lemma transform_pos_def Ns Nd M : pos_def (11 * Ns + 6 * Nd) M -> pos_def (11 * Ns + 6 * Nd) (minf_transform Ns Nd M).
Proof.
  set (n := (11 * Ns + 6 * Nd)%nat). intros HP.
  destruct (pos_def_invertible n M HP) as [I HI]. pose proof (transforms_inverse Ns Nd M I HI) as HT. fold n in HT.
  apply pos_def_of. intros v Hv. set (Lm := minf_L Ns Nd). set (w := mvec n (mtr Lm) v).
  replace (rsum n (fun i => v i * mvec n (minf_transform Ns Nd M) v i)) with (rsum n (fun i => w i * mvec n M w i)).
  - apply pos_def_quad; [exact HP|].
    destruct (Classical_Prop.classic (exists i, (i < n)%nat /\ w i <> 0)) as [H|H]; [exact H|exfalso].
    assert (Z : forall i, (i < n)%nat -> w i = 0).
    { intros i Hi. destruct (Req_EM_T (w i) 0) as [E|E]; [exact E|]. exfalso. apply H. exists i. auto. }
    assert (Z2 : forall i, (i < n)%nat -> mvec n (minf_transform Ns Nd M) v i = 0).
    { intros i Hi. unfold minf_transform. fold n. fold Lm. rewrite mvec_mmul, mvec_mmul. fold w.
      unfold mvec at 1. apply rsum_zero. intros j Hj. unfold mvec. rewrite rsum_zero; [ring|]. intros k Hk. rewrite Z by exact Hk. ring. }
    destruct Hv as (i & Hi & Hv). apply Hv.
    pose proof (proj1 (is_inv_mvec n _ _ v (fun _ => 0) HT) (fun j Hj => eq_sym (Z2 j Hj)) i Hi) as E.
    rewrite E. unfold mvec. apply rsum_zero. intros. ring.
  - unfold minf_transform. fold n. fold Lm.
    transitivity (rsum n (fun i => rsum n (fun j => v j * Lm j i * mvec n M w i))).
    + apply rsum_ext. intros i Hi. unfold w at 1. unfold mvec at 1, mtr. rewrite <- rsum_scal_r. apply rsum_ext. intros. ring.
    + rewrite rsum_swap. apply rsum_ext. intros j Hj. rewrite mvec_mmul, mvec_mmul. fold w. unfold mvec at 2. rewrite <- rsum_scal_l. apply rsum_ext. intros. ring.
Qed.

Lemma pos_def_ext n M M' : (forall i j, (i < n)%nat -> (j < n)%nat -> M i j = M' i j) -> pos_def n M -> pos_def n M'.
Proof.
  intros H HP. apply pos_def_of. intros x Hx.
  replace (rsum n (fun i => x i * mvec n M' x i)) with (rsum n (fun i => x i * mvec n M x i)); [apply pos_def_quad; assumption|].
  apply rsum_ext. intros i Hi. f_equal. apply mvec_ext; [|reflexivity]. intros. apply H; assumption.
Qed.

Theorem far_pos_def bb p mu a0 A :
  let Ns := num_spheres p in let Nd := num_dumbbells p in let nb := (Ns + 2 * Nd)%nat in let n := (11 * Ns + 6 * Nd)%nat in
  0 < mu -> 0 < a0 -> radii_within nb (bead_sizes p) a0 A ->
  spaced nb (bead_positions p) (500 * INR n * A ^ 3 * a0) -> spaced nb (bead_positions p) (/ 10 ^ 10) ->
  pos_def n (generate_Minfinity bb p mu).
Proof.
  intros Ns Nd nb n Hmu Ha0 HA HX HT.
  apply (pos_def_ext n (minf_transform Ns Nd (minf_loop bb p mu))).
  - intros i j Hi Hj. symmetry. apply gen_transform; assumption.
  - apply transform_pos_def. apply (loop_pos_def bb (bead_positions p) (bead_sizes p) Ns Nd mu a0 A); assumption.
Qed.
