(** The far-field mobility matrix: all entries, symmetry, relabelling,
    translation, viscosity. *)
From Coq Require Import Reals Arith Bool List Lia Lra FunctionalExtensionality.
From Verif Require Import Base Model_Pack Model_Mob Model_Layout Model_Minf Model_L Spec_Layout Spec_Minf
  Spec_Calc Proof_Fold Proof_Layout Proof_Calc Proof_Mob Proof_Mob2 Proof_Minf Proof_L.
Import ListNotations.
Local Open Scope R_scope.

Lemma vopp_vopp r : vopp (vopp r) = r.
Proof. apply functional_extensionality. intros t. unfold vopp. ring. Qed.

Lemma norm_vscal t r : norm (vscal t r) = Rabs t * norm r.
Proof.
  unfold norm, vscal.
  transitivity (sqrt (Rsqr t * (r 0%nat ^ 2 + r 1%nat ^ 2 + r 2%nat ^ 2))).
  - f_equal. unfold Rsqr. ring.
  - rewrite sqrt_mult_alt by apply Rle_0_sqr. rewrite sqrt_Rsqr_abs. reflexivity.
Qed.

Lemma norm_ext3 r r' : (forall i, (i < 3)%nat -> r i = r' i) -> norm r = norm r'.
Proof. intros H. unfold norm. rewrite !H by lia. reflexivity. Qed.

Lemma e8 : / 10 ^ 10 < / 10 ^ 8.
Proof. apply Rinv_lt_contravar; [apply Rmult_lt_0_compat; apply pow_lt; lra|]. apply Rlt_pow; [lra|lia]. Qed.

(** Separation of the pair as used. *)
Lemma geom_far x1 x2 a1 a2 : 0 < a1 + a2 -> tiny < norm (vsub x1 x2) ->
  tiny < snd (pair_geometry x1 x2 a1 a2) /\
  norm (fst (pair_geometry x1 x2 a1 a2)) = snd (pair_geometry x1 x2 a1 a2).
Proof.
  intros Ha H. unfold pair_geometry. set (r := vsub x1 x2) in *. set (s := norm r) in *.
  destruct (Rlt_dec (/ 10 ^ 8) s) as [H8|H8]; [|simpl; auto].
  destruct (Rlt_dec (2 * s / (a1 + a2)) (2001 / 1000)) as [H2|H2]; [|simpl; auto].
  cbn [fst snd]. set (ss := 2001 / 1000 * (a1 + a2) / 2).
  assert (Hs0 : 0 < s) by (pose proof tiny_pos; lra).
  assert (Hss : s < ss).
  { unfold ss. apply Rmult_lt_compat_r with (r := a1 + a2) in H2; [|exact Ha].
    replace (2 * s / (a1 + a2) * (a1 + a2)) with (2 * s) in H2 by (field; lra). lra. }
  split; [lra|].
  rewrite (norm_ext3 _ (vscal (ss / s) r)).
  - rewrite norm_vscal. fold s. rewrite Rabs_pos_eq.
    + field. lra.
    + apply Rlt_le, Rdiv_lt_0_compat; lra.
  - intros i Hi. idx3 Hi; unfold vscal; simpl; unfold Rdiv; ring.
Qed.

Lemma condense_swap f i j :
  condense_idx (fun k l => condense_idx (fun k' l' => f k l k' l') j) i =
  condense_idx (fun k' l' => condense_idx (fun k l => f k l k' l') i) j.
Proof. unfold condense_idx. cbn [rsum]. ring. Qed.

Lemma pmob_swap k1 k2 r s ap aq c mu i j :
  (i < ksize k1)%nat -> (j < ksize k2)%nat ->
  (k1 = k2 \/ k1 = KU /\ k2 = KB \/ k1 = KB /\ k2 = KU -> tiny < s /\ tiny < L1 r) ->
  pmob k2 k1 (vopp r) s aq ap c mu j i = pmob k1 k2 r s ap aq c mu i j.
Proof.
  intros Hi Hj H.
  destruct k1, k2; unfold pmob; rewrite ?vopp_vopp; try reflexivity;
    try (unfold vopp; apply M11_exchange; apply H; tauto).
  - apply M22_exchange; [assumption|assumption|]. apply H. tauto.
  - destruct (Rlt_dec tiny s) as [Hs|Hs].
    + rewrite condense_swap. apply condense_ext. intros k l _ _. apply condense_ext. intros k' l' _ _.
      apply M33_exchange.
    + exfalso. apply Hs. apply H. tauto.
Qed.

Section Loop.
Variables (bb : bool) (x : nat -> vec) (a : nat -> R) (Ns Nd : nat) (c mu : R).
Let nb := (Ns + 2 * Nd)%nat.
Let N := (11 * Ns + 6 * Nd)%nat.
Let g := fun p q => pair_geometry (x p) (x q) (a p) (a q).
Let M := generate_Minfinity_loop bb x a Ns Nd c mu.

Lemma loop_raw r t : M r t = symmetrise (raw bb x a Ns Nd c mu) r t.
Proof. reflexivity. Qed.

Lemma loop_sym : msym N M.
Proof.
  intros i j _ _. unfold M, generate_Minfinity_loop, symmetrise.
  destruct (lt_eq_lt_dec i j) as [[H| ->]|H].
  - rewrite (proj2 (Nat.leb_le i j)), (proj2 (Nat.leb_gt j i)), (proj2 (Nat.ltb_ge j i)), (proj2 (Nat.ltb_lt i j)) by lia. ring.
  - reflexivity.
  - rewrite (proj2 (Nat.leb_le j i)), (proj2 (Nat.leb_gt i j)), (proj2 (Nat.ltb_ge i j)), (proj2 (Nat.ltb_lt j i)) by lia. ring.
Qed.

Lemma upper_val_spec k1 p k2 q i j :
  upper_val bb x a c mu k1 p k2 q i j = bead_mobility bb g a c mu k1 p k2 q i j.
Proof.
  unfold upper_val, bead_mobility, g.
  destruct (pair_geometry (x p) (x q) (a p) (a q)) as [r s].
  destruct k1, k2; destruct bb; destruct (Nat.eqb p q); reflexivity.
Qed.

(** Entries on or above the diagonal; no hypothesis on the positions. *)
Lemma loop_upper k1 p k2 q i j :
  kvalid Ns Nd k1 p -> kvalid Ns Nd k2 q -> (i < ksize k1)%nat -> (j < ksize k2)%nat ->
  (kstart Ns k1 p + i <= kstart Ns k2 q + j)%nat ->
  ent Ns M k1 p k2 q i j = bead_mobility bb g a c mu k1 p k2 q i j.
Proof.
  intros V1 V2 Hi Hj Hle. rewrite <- upper_val_spec. unfold ent. rewrite loop_raw. unfold symmetrise.
  rewrite (proj2 (Nat.leb_le _ _) Hle), (proj2 (Nat.ltb_ge _ _) Hle), Rplus_0_r.
  apply raw_upper; try assumption. unfold upper_block.
  destruct (lt_eq_lt_dec (krank k1) (krank k2)) as [[H|H]|H].
  - left; exact H.
  - right. assert (E : k1 = k2) by (destruct k1, k2; simpl in H; congruence). split; [exact E|].
    destruct (le_lt_dec p q) as [?|Hqp]; [assumption|].
    pose proof (block_order Ns Nd k2 q j k1 p i V2 V1 Hj Hi (or_intror (conj (eq_sym E) Hqp))). lia.
  - pose proof (block_order Ns Nd k2 q j k1 p i V2 V1 Hj Hi (or_introl H)). lia.
Qed.

Lemma swap_entry k1 p k2 q i j :
  bead_mobility bb g a c mu k1 p k2 q i j =
  match k1, k2, (bb || Nat.eqb q p)%bool with
  | KB, KB, false => 0
  | _, _, _ => pmob k1 k2 (vopp (fst (g q p))) (snd (g q p)) (a p) (a q) c mu i j
  end.
Proof.
  unfold bead_mobility, g. rewrite (geom_swap (x q) (x p) (a q) (a p)), (Nat.eqb_sym q p).
  destruct (pair_geometry (x q) (x p) (a q) (a p)) as [r s]. reflexivity.
Qed.

Lemma delta_swap_sym (i j : nat) (d : R) : delta i j / d = delta j i / d.
Proof. rewrite delta_sym. reflexivity. Qed.

(** The self block of a bead is symmetric. *)
Lemma self_sym k1 k2 p i j : (i < ksize k1)%nat -> (j < ksize k2)%nat ->
  bead_mobility bb g a c mu k2 p k1 p j i = bead_mobility bb g a c mu k1 p k2 p i j.
Proof.
  intros Hi Hj. unfold bead_mobility, g. rewrite geom_self, Nat.eqb_refl, orb_true_r. cbn [fst snd].
  assert (Hr : vopp (vsub (x p) (x p)) = vsub (x p) (x p)).
  { apply functional_extensionality. intros t. unfold vopp, vsub. ring. }
  destruct k1, k2; unfold pmob; rewrite ?Hr; try reflexivity;
    try (unfold M11; destruct (Rlt_dec tiny 0) as [H|H]; [destruct (tiny_not_0 H)|]; apply delta_swap_sym).
  - unfold M22. destruct (Rlt_dec _ _) as [H|H].
    + exfalso. revert H. unfold vsub. rewrite !Rminus_diag_eq by reflexivity. rewrite Rabs_R0. pose proof tiny_pos. lra.
    + apply delta_swap_sym.
Qed.

Lemma loop_entry k1 p k2 q i j :
  kvalid Ns Nd k1 p -> kvalid Ns Nd k2 q -> (i < ksize k1)%nat -> (j < ksize k2)%nat ->
  distinct_beads nb x a ->
  ent Ns M k1 p k2 q i j = bead_mobility bb g a c mu k1 p k2 q i j.
Proof.
  intros V1 V2 Hi Hj [Ha Hx].
  destruct (le_lt_dec (kstart Ns k1 p + i) (kstart Ns k2 q + j)) as [Hle|Hgt].
  { apply loop_upper; assumption. }
  unfold ent. rewrite loop_sym by (unfold N; first [apply block_range; assumption]).
  change (M (kstart Ns k2 q + j)%nat (kstart Ns k1 p + i)%nat) with (ent Ns M k2 q k1 p j i).
  rewrite loop_upper by (try assumption; lia).
  pose proof (kvalid_nb Ns Nd _ _ V1) as P1. pose proof (kvalid_nb Ns Nd _ _ V2) as P2.
  destruct (Nat.eq_dec p q) as [->|Hne].
  - apply self_sym; assumption.
  - rewrite (swap_entry k2 q k1 p j i). unfold bead_mobility.
    assert (Hfar : tiny < snd (g p q) /\ tiny < L1 (fst (g p q))).
    { unfold g. destruct (geom_far (x p) (x q) (a p) (a q)) as [H1 H2].
      - specialize (Ha p P1) as A1. specialize (Ha q P2) as A2. lra.
      - apply Hx; assumption.
      - split; [exact H1|]. apply Rlt_le_trans with (1 := H1). rewrite <- H2 at 1. apply norm_le_L1. }
    pose proof (pmob_swap k1 k2 (fst (g p q)) (snd (g p q)) (a p) (a q) c mu i j Hi Hj (fun _ => Hfar)) as E.
    destruct k1, k2; destruct (bb || Nat.eqb p q)%bool; try reflexivity; exact E.
Qed.

(** Entries with a tensor-product form of the two indices: the whole matrix. *)
Lemma loop_ext (M' : mat) :
  (forall k1 p k2 q i j, kvalid Ns Nd k1 p -> kvalid Ns Nd k2 q -> (i < ksize k1)%nat -> (j < ksize k2)%nat ->
     ent Ns M' k1 p k2 q i j = ent Ns M k1 p k2 q i j) ->
  forall r t, (r < N)%nat -> (t < N)%nat -> M' r t = M r t.
Proof.
  intros H r t Hr Ht.
  destruct (block_cover Ns Nd r Hr) as (k1 & p & i & V1 & Hi & ->).
  destruct (block_cover Ns Nd t Ht) as (k2 & q & j & V2 & Hj & ->).
  exact (H k1 p k2 q i j V1 V2 Hi Hj).
Qed.
End Loop.
