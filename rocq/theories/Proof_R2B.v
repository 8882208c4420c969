(** Every entry of the near-field resistance matrix. *)
From Coq Require Import Reals Arith Bool List Lia Lra FunctionalExtensionality.
From Verif Require Import Base Model_Pack Model_Mob Model_Layout Model_Minf Model_Close Model_L Model_R2B
  Spec_Layout Spec_Minf Spec_R2B Spec_Calc Proof_Fold Proof_Layout Proof_Calc Proof_Mob Proof_Mob2
  Proof_Minf Proof_Minf2 Proof_L.
Import ListNotations.
Local Open Scope R_scope.

Lemma L3_full d i j : (i < 3)%nat -> (j < 3)%nat -> L3t d i j = rsum 3 (fun k => levi i j k * d k).
Proof. intros Hi Hj. idx3 Hi; idx3 Hj; unfold L3t, lsum, others, levi; simpl; ring. Qed.

Section Fns.
Variable sc : nat -> nat -> R -> nat -> R.

Lemma Af_spec k1 k2 g d li s a i j : mrank k1 = 0%nat -> mrank k2 = 0%nat ->
  Af sc g d li s i j * (6 * PI * a) = two_body (fun n => sc n g s li) k1 k2 d a i j.
Proof.
  intros H1 H2. destruct k1; try discriminate H1; destruct k2; try discriminate H2;
  unfold two_body, Af, L1t, L2t, trans; ring.
Qed.
Lemma Bf_spec k2 g d li s a i j : mrank k2 = 0%nat -> (i < 3)%nat -> (j < 3)%nat ->
  Bf sc g d li s i j * (4 * PI * a ^ 2) = two_body (fun n => sc n g s li) KO k2 d a i j.
Proof.
  intros H2 Hi Hj. destruct k2; try discriminate H2;
  unfold two_body, Bf; rewrite L3_full by assumption; ring.
Qed.
Lemma Cf_spec g d li s a i j :
  Cf sc g d li s i j * (8 * PI * a ^ 3) = two_body (fun n => sc n g s li) KO KO d a i j.
Proof. unfold two_body, Cf, L1t, L2t, trans; ring. Qed.

Lemma Gf_dev g d li s k l j :
  Gf sc g d li s k l j = sc 5%nat g s li * (dev d k l * d j)
                         + sc 6%nat g s li * (d k * trans d l j + d l * trans d k j).
Proof. unfold Gf, L4t, L5t, dev, trans. ring. Qed.
Lemma con_Gf_spec k2 g d li s a i j : mrank k2 = 0%nat -> (i < 5)%nat ->
  con_Gf_row sc g d li s j i * (4 * PI * a ^ 2) = two_body (fun n => sc n g s li) KS k2 d a i j.
Proof.
  intros H2 Hi. unfold con_Gf_row. rewrite con_row_condense by exact Hi.
  rewrite (condense_ext _ _ i (fun k l _ _ => Gf_dev g d li s k l j)).
  destruct k2; try discriminate H2; unfold two_body; ring.
Qed.
Lemma con_Gf_mat_spec k2 d li s a i j : mrank k2 = 0%nat -> (i < 5)%nat ->
  con_Gf_mat sc d li s i j * (4 * PI * a ^ 2) = two_body (fun n => sc n 1%nat s li) KS k2 d a i j.
Proof.
  intros H2 Hi. unfold con_Gf_mat, mmul.
  rewrite (cond_E_condense (fun k l => Gf sc 1 d li s k l j)) by exact Hi.
  rewrite (condense_ext _ _ i (fun k l _ _ => Gf_dev 1 d li s k l j)).
  destruct k2; try discriminate H2; unfold two_body; ring.
Qed.
Lemma L6_full d k l j : (k < 3)%nat -> (l < 3)%nat -> (j < 3)%nat ->
  L6t d k l j = d k * rsum 3 (fun m => levi l j m * d m) + d l * rsum 3 (fun m => levi k j m * d m).
Proof.
  intros Hk Hl Hj. idx3 Hk; idx3 Hl; idx3 Hj; unfold L6t, lsum, others, levi; simpl; ring.
Qed.
Lemma con_Hf_spec g d li s a i j : (i < 5)%nat -> (j < 3)%nat ->
  con_Hf_row sc g d li s j i * (8 * PI * a ^ 3) = two_body (fun n => sc n g s li) KS KO d a i j.
Proof.
  intros Hi Hj. unfold con_Hf_row. rewrite con_row_condense by exact Hi.
  unfold two_body.
  erewrite (condense_ext (fun j0 k => Hf sc g d li s j0 k j)).
  2:{ intros k l Hk Hl. unfold Hf. rewrite L6_full by assumption. reflexivity. }
  ring.
Qed.
Lemma con_Mf_spec g d li s a i j : (i < 5)%nat -> (j < 5)%nat ->
  con_Mf sc g d li s i j * (20 / 3 * PI * a ^ 3) = two_body (fun n => sc n g s li) KS KS d a i j.
Proof.
  intros Hi Hj. unfold con_Mf.
  rewrite (cond_E_both (fun k l m n => Mf sc g d li s k l m n)) by assumption.
  unfold two_body.
  erewrite (condense_ext (fun k l => condense_idx (fun k' l' => Mf sc g d li s k l k' l') j)).
  2:{ intros k l Hk Hl. apply condense_ext. intros m n Hm Hn.
      instantiate (1 := fun m n => _). cbv beta.
      transitivity (sc 8%nat g s li * (3 / 2 * dev d k l * dev d m n)
        + sc 9%nat g s li * (1 / 2 * (d k * d m * trans d l n + d l * d m * trans d k n
                               + d k * d n * trans d l m + d l * d n * trans d k m))
        + sc 10%nat g s li * (1 / 2 * (trans d k m * trans d l n + trans d l m * trans d k n
                                - trans d k l * trans d m n))).
      - unfold Mf, L7t, L8t, L9t, dev, trans. ring.
      - reflexivity. }
  ring.
Qed.
End Fns.
