(** The periodic mobility matrix: all entries, symmetry, relabelling,
    translation, viscosity. *)
From Coq Require Import Reals Arith Bool List Lia Lra FunctionalExtensionality.
From Verif Require Import Base Model_Pack Model_Mob Model_Layout Model_Minf Model_L Model_Ewald Model_MinfP
  Spec_Layout Spec_Minf Spec_MinfP Spec_Calc Proof_Fold Proof_Layout Proof_Calc Proof_Mob Proof_Mob2
  Proof_Minf Proof_L Proof_Minf2 Proof_Minf3 Proof_MinfP1 Proof_MinfP2.
Import ListNotations.
Local Open Scope R_scope.

Lemma norm_le_abs1 r : norm r <= abs1 r.
Proof. apply norm_le_L1. Qed.

Section Exchange.
Variable lat : lattice.
Hypothesis HX : reflected (X_lmn lat).
Variables (c mu : R).
Notation dst r := (fun X => norm (vadd r X)).
Notation er s := (generate_erfcs s (lat_lamb lat)).

Lemma M11P_swap i j r s a1 a2 : (tiny < s /\ (forall X, In X (X_lmn lat) -> tiny < norm (vadd r X)) \/ a1 = a2) ->
  M11P lat j i (vopp r) s a2 a1 (er s) c mu (dst (vopp r)) = M11P lat i j r s a1 a2 (er s) c mu (dst r).
Proof.
  intros H. unfold M11P. destruct (Rlt_dec tiny s) as [Hs|Hs]; cbv zeta.
  - f_equal; [|f_equal].
    + rewrite (vsum_image (X_lmn lat) r (fun y => ar y (norm y) a2 a1 j i (er (norm y)) c mu) HX).
      apply vsum_ext. intros X HXi. rewrite norm_vopp. destruct H as [[_ H]| ->].
      * apply ar_swap. apply H. exact HXi.
      * apply ar_self_sym.
    + apply vsum_ext. intros K _. rewrite dot3_vopp, cos_neg, aktilde_sym. reflexivity.
  - destruct H as [[H _]| ->]; [contradiction|].
    assert (D : forall t, ar t s a2 a2 j i (er s) c mu = ar t s a2 a2 i j (er s) c mu).
    { intros t. unfold ar. destruct (Rlt_dec tiny s); [contradiction|]. rewrite delta_sym. reflexivity. }
    assert (D1 : ar (vopp r) s a2 a2 j i (er s) c mu = ar r s a2 a2 i j (er s) c mu) by apply ar_self_sym.
    rewrite D1, (delta_sym j i).
    rewrite (vsum_ext (Xdash_lmn lat) _ (fun X => ar X (norm X) a2 a2 i j (er (norm X)) c mu)).
    + rewrite (vsum_ext (K_lmn lat) _ (fun K => aktilde K (norm K) a2 a2 i j (RR_of (lat_lamb lat) (norm K)) c)); [ring|].
      intros K _. apply aktilde_sym.
    + intros X _. unfold ar. rewrite Jr_sym, Lap_Jr_sym, (delta_sym j i). reflexivity.
Qed.

Lemma cr_sym r s a1 a2 b2 i j e : (i < 3)%nat -> (j < 3)%nat -> cr r s a1 a2 j i e c mu = cr r s a1 b2 i j e c mu.
Proof.
  intros Hi Hj. rewrite <- (cr_swap' r s a1 a1 b2 b2 i j e c mu Hi Hj (or_intror eq_refl)).
  unfold cr. rewrite abs1_vopp. unfold D_Rr. rewrite !DD_Jr_even. reflexivity.
Qed.

Lemma M22P_swap i j r s a1 a2 : (i < 3)%nat -> (j < 3)%nat ->
  (tiny < s /\ (forall X, In X (X_lmn lat) -> tiny < norm (vadd r X)) \/ a1 = a2) ->
  M22P lat j i (vopp r) s a2 a1 (er s) c mu (dst (vopp r)) = M22P lat i j r s a1 a2 (er s) c mu (dst r).
Proof.
  intros Hi Hj H. unfold M22P. destruct (Rlt_dec tiny s) as [Hs|Hs]; cbv zeta.
  - f_equal; [|f_equal].
    + rewrite (vsum_image (X_lmn lat) r (fun y => cr y (norm y) a2 a1 j i (er (norm y)) c mu) HX).
      apply vsum_ext. intros X HXi. rewrite norm_vopp. apply cr_swap'; try assumption.
      destruct H as [[_ H]|E]; [left|right; exact E].
      apply Rlt_le_trans with (1 := H X HXi). apply norm_le_abs1.
    + apply vsum_ext. intros K _. rewrite dot3_vopp, cos_neg. f_equal. apply cktilde_sym; assumption.
  - destruct H as [[H _]| ->]; [contradiction|].
    rewrite (cr_swap' r s a2 a2 a2 a2 i j) by (try assumption; right; reflexivity).
    rewrite (vsum_ext (Xdash_lmn lat) _ (fun X => cr X (norm X) a2 a2 i j (er (norm X)) c mu)).
    + rewrite (vsum_ext (K_lmn lat) _ (fun K => cktilde K (norm K) a2 a2 i j (RR_of (lat_lamb lat) (norm K)) c)); [ring|].
      intros K _. apply cktilde_sym; assumption.
    + intros X _. apply cr_sym; assumption.
Qed.

Lemma M33P_swap i j k l r s a1 a2 :
  (tiny < s /\ (forall X, In X (X_lmn lat) -> tiny < norm (vadd r X)) \/ a1 = a2) ->
  M33P lat k l i j (vopp r) s a2 a1 (er s) c mu (dst (vopp r)) = M33P lat i j k l r s a1 a2 (er s) c mu (dst r).
Proof.
  intros H. unfold M33P. destruct (Rlt_dec tiny s) as [Hs|Hs]; cbv zeta.
  - f_equal; [|f_equal].
    + rewrite (vsum_image (X_lmn lat) r (fun y => mr y (norm y) a2 a1 k l i j (er (norm y)) c mu) HX).
      apply vsum_ext. intros X HXi. rewrite norm_vopp. apply mr_swap.
      destruct H as [[_ H]|E]; [left; apply H; exact HXi|right; exact E].
    + apply vsum_ext. intros K _. rewrite dot3_vopp, cos_neg. f_equal. apply mktilde_sym.
  - destruct H as [[H _]| ->]; [contradiction|].
    rewrite (mr_swap r s a2 a2 i j k l) by (right; reflexivity).
    rewrite (vsum_ext (Xdash_lmn lat) _ (fun X => mr X (norm X) a2 a2 i j k l (er (norm X)) c mu)).
    + rewrite (vsum_ext (K_lmn lat) _ (fun K => mktilde K (norm K) a2 a2 i j k l (RR_of (lat_lamb lat) (norm K)) c)).
      * rewrite kron3t_sym. ring.
      * intros K _. apply mktilde_sym.
    + intros X _. rewrite <- (mr_swap X (norm X) a2 a2 i j k l) by (right; reflexivity).
      unfold mr, D_Kr, DLap_Kr. rewrite !DD_Jr_even, !DDLap_Jr_even. reflexivity.
Qed.

Lemma periodic_swap k1 k2 r s ap aq i j :
  (i < ksize k1)%nat -> (j < ksize k2)%nat ->
  (tiny < s /\ (forall X, In X (X_lmn lat) -> tiny < norm (vadd r X)) \/ ap = aq) ->
  periodic_pair lat k2 k1 (vopp r) s aq ap c mu j i = periodic_pair lat k1 k2 r s ap aq c mu i j.
Proof.
  intros Hi Hj H.
  destruct k1, k2; unfold periodic_pair; cbv zeta; rewrite ?vopp_vopp;
    lazymatch goal with
    | |- M11P _ _ _ _ _ _ _ _ _ _ _ = _ => apply M11P_swap; exact H
    | |- M22P _ _ _ _ _ _ _ _ _ _ _ = _ => apply M22P_swap; assumption
    | |- condense_idx (fun k l => condense_idx _ _) _ = _ => idtac
    | |- _ => reflexivity
    end.
  - rewrite condense_swap. apply condense_ext. intros k l _ _. apply condense_ext. intros k' l' _ _.
    apply M33P_swap. exact H.
Qed.
End Exchange.

Section LoopP.
Variable lat : lattice.
Hypothesis HX : reflected (X_lmn lat).
Variables (bb : bool) (x : nat -> vec) (a : nat -> R) (Ns Nd : nat) (c mu : R) (stale : nat -> nat -> R).
Let nb := (Ns + 2 * Nd)%nat.
Let N := (11 * Ns + 6 * Nd)%nat.
Let g := fun p q => pair_geometry (x p) (x q) (a p) (a q).
Let M := generate_Minfinity_periodic_loop lat bb x a Ns Nd c mu stale.

Lemma symmetrise_sym A n : msym n (symmetrise A).
Proof.
  intros i j _ _. unfold symmetrise.
  destruct (lt_eq_lt_dec i j) as [[H| ->]|H].
  - rewrite (proj2 (Nat.leb_le i j)), (proj2 (Nat.leb_gt j i)), (proj2 (Nat.ltb_ge j i)), (proj2 (Nat.ltb_lt i j)) by lia. ring.
  - reflexivity.
  - rewrite (proj2 (Nat.leb_le j i)), (proj2 (Nat.leb_gt i j)), (proj2 (Nat.ltb_ge i j)), (proj2 (Nat.ltb_lt j i)) by lia. ring.
Qed.
Lemma loopP_sym : msym N M.
Proof. apply symmetrise_sym. Qed.

Lemma upper_valP_spec k1 p k2 q i j :
  upper_valP lat bb x a Nd c mu k1 p k2 q i j = periodic_bead_mobility lat bb Nd g a c mu k1 p k2 q i j.
Proof.
  unfold upper_valP, periodic_bead_mobility, g.
  destruct k1, k2; destruct (bb || same_dumbbell Nd p q)%bool; reflexivity.
Qed.

Lemma loopP_upper k1 p k2 q i j :
  kvalid Ns Nd k1 p -> kvalid Ns Nd k2 q -> (i < ksize k1)%nat -> (j < ksize k2)%nat ->
  (kstart Ns k1 p + i <= kstart Ns k2 q + j)%nat ->
  ent Ns M k1 p k2 q i j = periodic_bead_mobility lat bb Nd g a c mu k1 p k2 q i j.
Proof.
  intros V1 V2 Hi Hj Hle. rewrite <- upper_valP_spec. unfold ent.
  change M with (symmetrise (rawP lat bb x a Ns Nd c mu stale)). unfold symmetrise.
  rewrite (proj2 (Nat.leb_le _ _) Hle), (proj2 (Nat.ltb_ge _ _) Hle), Rplus_0_r.
  assert (Hup : upper_block k1 p k2 q); [|exact (rawP_upper lat HX bb x a Ns Nd c mu stale k1 p k2 q i j V1 V2 Hi Hj Hup)].
  unfold upper_block.
  destruct (lt_eq_lt_dec (krank k1) (krank k2)) as [[H|H]|H].
  - left; exact H.
  - right. assert (E : k1 = k2) by (destruct k1, k2; simpl in H; congruence). split; [exact E|].
    destruct (le_lt_dec p q) as [?|Hqp]; [assumption|].
    pose proof (block_order Ns Nd k2 q j k1 p i V2 V1 Hj Hi (or_intror (conj (eq_sym E) Hqp))). lia.
  - pose proof (block_order Ns Nd k2 q j k1 p i V2 V1 Hj Hi (or_introl H)). lia.
Qed.

Lemma same_dumbbell_sym p q : same_dumbbell Nd p q = same_dumbbell Nd q p.
Proof. unfold same_dumbbell. rewrite (Nat.eqb_sym p q). destruct (Nat.eqb q p), (Nat.eqb (p + Nd) q), (Nat.eqb (q + Nd) p); reflexivity. Qed.
Lemma mixed_sym k1 k2 : mixed k1 k2 = mixed k2 k1.
Proof. destruct k1, k2; reflexivity. Qed.

Lemma loopP_swap k1 p k2 q i j :
  (i < ksize k1)%nat -> (j < ksize k2)%nat -> (p < nb)%nat -> (q < nb)%nat -> apart lat nb x a ->
  periodic_bead_mobility lat bb Nd g a c mu k2 q k1 p j i = periodic_bead_mobility lat bb Nd g a c mu k1 p k2 q i j.
Proof.
  intros Hi Hj P1 P2 [[Ha Hd] Hx]. unfold periodic_bead_mobility.
  rewrite (same_dumbbell_sym q p), (mixed_sym k2 k1).
  assert (Eg : g q p = (vopp (fst (g p q)), snd (g p q))) by apply geom_swap.
  rewrite Eg. cbn [fst snd].
  assert (H : tiny < snd (g p q) /\ (forall X, In X (X_lmn lat) -> tiny < norm (vadd (fst (g p q)) X)) \/ a p = a q).
  { destruct (Req_EM_T (a p) (a q)) as [E|NE]; [right; exact E|left]. split.
    - apply geom_far; [specialize (Ha p P1) as A1; specialize (Ha q P2) as A2; lra|].
      apply Hd; try assumption. intros ->. apply NE. reflexivity.
    - intros X HXi. apply Hx; assumption. }
  assert (H' : tiny < snd (g p q) /\ (forall X, In X (X_lmn lat) -> tiny < norm (vadd (fst (g p q)) X)) \/ a q = a p).
  { destruct H as [H|H]; [left; exact H|right; symmetry; exact H]. }
  pose proof (periodic_swap lat HX c mu k1 k2 (fst (g p q)) (snd (g p q)) (a p) (a q) i j Hi Hj H) as E1.
  pose proof (periodic_swap lat HX c mu k1 k2 (fst (g p q)) (snd (g p q)) (a q) (a p) i j Hi Hj H') as E2.
  destruct k1, k2; destruct (bb || same_dumbbell Nd p q)%bool; cbn [mixed];
    lazymatch goal with
    | |- ?t = ?t => reflexivity
    | |- periodic_pair _ _ _ _ _ (a q) (a p) _ _ _ _ = _ => exact E1
    | |- periodic_pair _ _ _ _ _ (a p) (a q) _ _ _ _ = _ => exact E2
    end.
Qed.

Lemma loopP_entry k1 p k2 q i j :
  kvalid Ns Nd k1 p -> kvalid Ns Nd k2 q -> (i < ksize k1)%nat -> (j < ksize k2)%nat ->
  apart lat nb x a ->
  ent Ns M k1 p k2 q i j = periodic_bead_mobility lat bb Nd g a c mu k1 p k2 q i j.
Proof.
  intros V1 V2 Hi Hj HA.
  destruct (le_lt_dec (kstart Ns k1 p + i) (kstart Ns k2 q + j)) as [Hle|Hgt].
  { apply loopP_upper; assumption. }
  unfold ent. rewrite loopP_sym by (unfold N; first [apply block_range; assumption]).
  change (M (kstart Ns k2 q + j)%nat (kstart Ns k1 p + i)%nat) with (ent Ns M k2 q k1 p j i).
  rewrite loopP_upper by (try assumption; lia).
  apply loopP_swap; try assumption; [apply (kvalid_nb Ns Nd k1 p V1)|apply (kvalid_nb Ns Nd k2 q V2)].
Qed.
End LoopP.
