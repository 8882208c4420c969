(** How a block of the mobility of a pair turns. *)
From Coq Require Import Reals Arith Bool List Lia Lra FunctionalExtensionality.
From Verif Require Import Base Model_Pack Model_Mob Model_Layout Model_Minf Spec_Layout Spec_Minf Spec_Rotate
  Proof_Mob2 Proof_Minf Proof_Rotate1 Proof_Rotate2 Proof_Rotate3.
Import ListNotations.
Local Open Scope R_scope.

Section Pair.
Variable Q : mat.
Hypothesis HQ : orthogonal Q.
Notation e := (det3 Q).
Notation q := (rot Q).
Notation T := (tmat Q).

Lemma q_opp r : vopp (q r) = q (vopp r).
Proof. apply functional_extensionality. intros i. symmetry. apply rot_vopp. Qed.
Lemma opp_resolved r : resolved r -> resolved (vopp r).
Proof.
  intros [H|H]; [left|right].
  - replace (norm (vopp r)) with (norm r); [exact H|]. unfold norm, vopp. f_equal. ring.
  - intros i Hi. unfold vopp. rewrite H by assumption. ring.
Qed.
Lemma norm_opp r : norm (vopp r) = norm r.
Proof. unfold norm, vopp. f_equal. ring. Qed.

Lemma cond_rot f m : st f -> (m < 5)%nat -> condense_idx (rot2 Q f) m = rsum 5 (fun b => T KS m b * condense_idx f b).
Proof.
  intros Hf Hm. cbn [tmat]. rewrite <- (rot5_lin Q (condense_idx f) m). unfold rot5. apply condense_ext. intros k l Hk Hl.
  apply rot2_ext. intros a b Ha Hb. symmetry. apply tensor_condense; assumption.
Qed.
Lemma cond_rot3 f i m : (forall a, (a < 3)%nat -> st (f a)) -> (i < 3)%nat -> (m < 5)%nat ->
  condense_idx (fun k l => rot3 Q f i k l) m = rsum 3 (fun a => rsum 5 (fun b => Q i a * T KS m b * condense_idx (f a) b)).
Proof.
  intros Hf Hi Hm.
  transitivity (rsum 3 (fun a => Q i a * condense_idx (rot2 Q (f a)) m)).
  - rewrite (condense_ext _ (fun k l => rsum 3 (fun a => Q i a * rot2 Q (f a) k l))).
    + unfold condense_idx. unfold rsum. ring.
    + intros k l _ _. unfold rot3, rot2, rsum. ring.
  - apply rsum_ext. intros a Ha. rewrite cond_rot by auto. rewrite <- rsum_scal_l. apply rsum_ext. intros. ring.
Qed.
Lemma cond_rot4 f m n : (forall a b, (a < 3)%nat -> (b < 3)%nat -> st (fun k l => f k l a b)) ->
  (forall a b, (a < 3)%nat -> (b < 3)%nat -> st (f a b)) -> (m < 5)%nat -> (n < 5)%nat ->
  condense_idx (fun k l => condense_idx (fun k' l' => rot4 Q f k l k' l') n) m
  = rsum 5 (fun a => rsum 5 (fun b => T KS m a * T KS n b * condense_idx (fun k l => condense_idx (f k l) b) a)).
Proof.
  intros H1 H2 Hm Hn.
  assert (S : forall b, st (fun k l => condense_idx (f k l) b)).
  { intros b. split.
    - intros k l Hk Hl. apply condense_ext. intros k' l' Hk' Hl'. apply (H1 k' l' Hk' Hl'); assumption.
    - transitivity (condense_idx (fun k' l' => f 0%nat 0%nat k' l' + f 1%nat 1%nat k' l' + f 2%nat 2%nat k' l') b).
      + unfold condense_idx, rsum. ring.
      + rewrite (condense_ext _ (fun _ _ => 0)) by (intros k l Hk Hl; apply (H1 k l Hk Hl)). apply condense_zero. reflexivity. }
  transitivity (condense_idx (rot2 Q (fun k l => rsum 5 (fun b => T KS n b * condense_idx (f k l) b))) m).
  - apply condense_ext. intros k l Hk Hl.
    transitivity (rot2 Q (fun c d => condense_idx (rot2 Q (f c d)) n) k l).
    + rewrite (condense_ext _ (fun k' l' => rsum 3 (fun a => rsum 3 (fun b => Q k a * Q l b * rot2 Q (f a b) k' l')))).
      * unfold condense_idx. generalize (contraction n). intros w. unfold rot2 at 2.
        rewrite (rsum_ext 3 (fun j => rsum 3 (fun k0 => w j k0 * _))
           (fun j => rsum 3 (fun a => rsum 3 (fun b => rsum 3 (fun k0 => Q k a * Q l b * (w j k0 * rot2 Q (f a b) j k0)))))).
        2: { intros j _. unfold rsum. ring. }
        rewrite rsum_swap. apply rsum_ext. intros a _. rewrite rsum_swap. apply rsum_ext. intros b _.
        rewrite <- rsum_scal_l. apply rsum_ext. intros j _. rewrite rsum_scal_l. reflexivity.
      * intros k' l' _ _. unfold rot4, rot2. apply rsum_ext. intros a _. apply rsum_ext. intros b _.
        rewrite <- rsum_scal_l. apply rsum_ext. intros c _. rewrite <- rsum_scal_l. apply rsum_ext. intros. ring.
    + apply rot2_ext. intros c d Hc Hd. apply cond_rot; auto.
  - rewrite cond_rot.
    + apply rsum_ext. intros a _.
      transitivity (T KS m a * rsum 5 (fun b => T KS n b * condense_idx (fun k l => condense_idx (f k l) b) a)).
      * f_equal. generalize (fun b => T KS n b). intros w. generalize (fun k l b => condense_idx (f k l) b). intros h.
        unfold condense_idx, rsum. ring.
      * rewrite <- rsum_scal_l. apply rsum_ext. intros. ring.
    + split.
      * intros k l Hk Hl. apply rsum_ext. intros b _. f_equal. apply (S b); assumption.
      * rewrite <- !rsum_plus. apply rsum_zero. intros b _. rewrite <- !Rmult_plus_distr_l. rewrite (proj2 (S b)). ring.
    + assumption.
Qed.

Lemma M13_st_all r a1 a2 i c mu : (i < 3)%nat -> st (fun k l => M13 r (norm r) a1 a2 i k l c mu).
Proof.
  intros Hi. destruct (Rlt_dec tiny (norm r)) as [H|H].
  - apply M13_st; [reflexivity|assumption|assumption].
  - apply M13_st_self. lra.
Qed.

Definition turned_block (k1 k2 : kind) (f : nat -> nat -> R) (i j : nat) : R :=
  rsum (ksize k1) (fun a => rsum (ksize k2) (fun b => T k1 i a * T k2 j b * f a b)).

Lemma block_swap k1 k2 f i j : turned_block k1 k2 f i j = turned_block k2 k1 (fun a b => f b a) j i.
Proof.
  unfold turned_block. rewrite rsum_swap. apply rsum_ext. intros b _. apply rsum_ext. intros a _. ring.
Qed.

Lemma pm_UU r s a1 a2 c mu i j : (i < 3)%nat -> (j < 3)%nat ->
  M11 (q r i) (q r j) s a1 a2 i j c mu = rsum 3 (fun a => rsum 3 (fun b => Q i a * Q j b * M11 (r a) (r b) s a1 a2 a b c mu)).
Proof. intros Hi Hj. apply (M11_rot Q HQ); assumption. Qed.
Lemma pm_UO r s a1 a2 c mu i j : (i < 3)%nat -> (j < 3)%nat ->
  M12 (q r) s a1 a2 i j c mu = rsum 3 (fun a => rsum 3 (fun b => Q i a * mscal e Q j b * M12 r s a1 a2 a b c mu)).
Proof. intros Hi Hj. rewrite (M12_rot Q HQ) by assumption. unfold rot2, mscal, rsum. ring. Qed.
Lemma pm_US r a1 a2 c mu i j : (i < 3)%nat -> (j < 5)%nat ->
  condense_idx (fun k l => M13 (q r) (norm r) a1 a2 i k l c mu) j
  = rsum 3 (fun a => rsum 5 (fun b => Q i a * T KS j b * condense_idx (fun k l => M13 r (norm r) a1 a2 a k l c mu) b)).
Proof.
  intros Hi Hj. rewrite <- (cond_rot3 (fun a k l => M13 r (norm r) a1 a2 a k l c mu)).
  - apply condense_ext. intros k l Hk Hl. apply (M13_rot Q HQ); assumption.
  - intros. apply M13_st_all. assumption.
  - assumption.
  - assumption.
Qed.
Lemma pm_OS r s a1 a2 c mu i j : resolved r -> (i < 3)%nat -> (j < 5)%nat ->
  condense_idx (fun k l => M23 (q r) s a1 a2 i k l c mu) j
  = rsum 3 (fun a => rsum 5 (fun b => mscal e Q i a * T KS j b * condense_idx (fun k l => M23 r s a1 a2 a k l c mu) b)).
Proof.
  intros Hr Hi Hj.
  transitivity (e * condense_idx (fun k l => rot3 Q (fun a k l => M23 r s a1 a2 a k l c mu) i k l) j).
  - rewrite (condense_ext _ (fun k l => e * rot3 Q (fun a k l => M23 r s a1 a2 a k l c mu) i k l)).
    + unfold condense_idx, rsum. ring.
    + intros k l Hk Hl. apply (M23_rot Q HQ); assumption.
  - rewrite cond_rot3; try assumption.
    + rewrite <- rsum_scal_l. apply rsum_ext. intros a _. rewrite <- rsum_scal_l. apply rsum_ext. intros. unfold mscal. ring.
    + intros. apply M23_st. assumption.
Qed.
Lemma pm_SS r s a1 a2 c mu i j : s = norm r -> (i < 5)%nat -> (j < 5)%nat ->
  pmob KS KS (q r) s a1 a2 c mu i j = rsum 5 (fun a => rsum 5 (fun b => T KS i a * T KS j b * pmob KS KS r s a1 a2 c mu a b)).
Proof.
  intros Hs Hi Hj. unfold pmob. destruct (Rlt_dec tiny s) as [H|H].
  - rewrite <- (cond_rot4 (fun k l k' l' => M33 r s a1 a2 k l k' l' c mu)); try assumption.
    + apply condense_ext. intros k l Hk Hl. apply condense_ext. intros k' l' Hk' Hl'. apply (M33_rot Q HQ); assumption.
    + intros a b Ha Hb. apply M33_st1; assumption.
    + intros a b Ha Hb. apply M33_st2; assumption.
  - transitivity (rsum 5 (fun a => T KS i a * T KS j a) * / (20 / 3 * PI * mu * a1 ^ 3)).
    + pose proof (tmat_rows Q HQ KS i j Hi Hj) as R0. change (ksize KS) with 5%nat in R0. rewrite R0. reflexivity.
    + rewrite <- rsum_scal_r. apply rsum_ext. intros a Ha.
      rewrite (rsum_ext 5 _ (fun b => delta a b * (T KS i a * T KS j b * / (20 / 3 * PI * mu * a1 ^ 3)))) by (intros; unfold Rdiv; ring).
      rewrite rsum_delta_l by assumption. reflexivity.
Qed.
Lemma pm_OO r s a1 a2 c mu i j : resolved r -> (i < 3)%nat -> (j < 3)%nat ->
  M22 (q r) s a1 a2 i j c mu = rsum 3 (fun a => rsum 3 (fun b => mscal e Q i a * mscal e Q j b * M22 r s a1 a2 a b c mu)).
Proof.
  intros Hr Hi Hj. rewrite (M22_rot Q HQ) by assumption. transitivity (e * e * rot2 Q (fun a b => M22 r s a1 a2 a b c mu) i j).
  - rewrite (det_sq Q HQ). ring.
  - unfold rot2, mscal, rsum. ring.
Qed.

Theorem pmob_rot k1 k2 r a1 a2 c mu i j : resolved r -> (i < ksize k1)%nat -> (j < ksize k2)%nat ->
  pmob k1 k2 (q r) (norm r) a1 a2 c mu i j = turned_block k1 k2 (fun a b => pmob k1 k2 r (norm r) a1 a2 c mu a b) i j.
Proof.
  intros Hr Hi Hj.
  assert (Ho : resolved (vopp r)) by (apply opp_resolved; exact Hr).
  assert (US : forall j0, (j0 < 3)%nat -> forall m, (m < 5)%nat ->
    condense_idx (fun k l => M13 (q (vopp r)) (norm r) a2 a1 j0 k l c mu) m
    = rsum 3 (fun a => rsum 5 (fun b => Q j0 a * T KS m b * condense_idx (fun k l => M13 (vopp r) (norm r) a2 a1 a k l c mu) b))).
  { intros j0 H0 m Hm. rewrite <- (norm_opp r). apply pm_US; assumption. }
  destruct k1, k2; cbn [ksize] in Hi, Hj.
  - apply pm_UU; assumption.
  - apply pm_UO; assumption.
  - apply pm_US; assumption.
  - apply pm_UU; assumption.
  - rewrite block_swap. unfold pmob. rewrite q_opp. apply pm_UO; assumption.
  - apply pm_OO; assumption.
  - apply pm_OS; assumption.
  - rewrite block_swap. unfold pmob. rewrite q_opp. apply pm_UO; assumption.
  - rewrite block_swap. unfold pmob. rewrite q_opp. apply US; assumption.
  - rewrite block_swap. unfold pmob. rewrite q_opp. apply pm_OS; assumption.
  - apply pm_SS; [reflexivity|assumption|assumption].
  - rewrite block_swap. unfold pmob. rewrite q_opp. apply US; assumption.
  - apply pm_UU; assumption.
  - apply pm_UO; assumption.
  - apply pm_US; assumption.
  - apply pm_UU; assumption.
Qed.
End Pair.
