(** How the near-field resistance matrix turns. *)
From Coq Require Import Reals Arith Bool List Lia Lra FunctionalExtensionality.
From Verif Require Import Base Model_Pack Model_Mob Model_Layout Model_Minf Model_L Model_Close Model_R2B
  Spec_Layout Spec_Minf Spec_R2B Spec_Close Spec_Rotate
  Proof_Mob2 Proof_Layout Proof_Minf Proof_Minf3 Proof_R2B3 Proof_R2B4 Proof_Close
  Proof_Rotate1 Proof_Rotate2 Proof_Rotate3 Proof_Rotate4 Proof_Rotate5.
Import ListNotations.
Local Open Scope R_scope.

Section Near.
Variable Q : mat.
Hypothesis HQ : orthogonal Q.
Notation e := (det3 Q).
Notation q := (rot Q).
Notation T := (tmat Q).

Lemma trans_rot d i j : (i < 3)%nat -> (j < 3)%nat -> trans (q d) i j = rot2 Q (trans d) i j.
Proof.
  intros Hi Hj. unfold trans. rewrite (vec_rot2 Q d), (delta_rot Q HQ i j) by assumption.
  rewrite (rot2_ext Q (fun i0 j0 => delta i0 j0 - d i0 * d j0) (fun i0 j0 => 1 * delta i0 j0 + (-(1)) * (d i0 * d j0))) by (intros; ring).
  rewrite (rot2_lin Q 1 (-(1)) delta (fun a b => d a * d b)). ring.
Qed.
Lemma dev_rot d i j : (i < 3)%nat -> (j < 3)%nat -> dev (q d) i j = rot2 Q (dev d) i j.
Proof.
  intros Hi Hj. unfold dev. rewrite (vec_rot2 Q d), (delta_rot Q HQ i j) by assumption.
  rewrite (rot2_ext Q (fun i0 j0 => d i0 * d j0 - delta i0 j0 / 3) (fun i0 j0 => 1 * (d i0 * d j0) + (-(1)/3) * delta i0 j0)) by (intros; field).
  rewrite (rot2_lin Q 1 (-(1)/3) (fun a b => d a * d b) delta). field.
Qed.
Lemma eps_unfold d i j : rsum 3 (fun k => levi i j k * d k) = eps d i j. Proof. reflexivity. Qed.

Lemma prod12 f g i j k l : rot4 Q (fun x y z w => f x y * g z w) i j k l = rot2 Q f i j * rot2 Q g k l.
Proof. unfold rot4, rot2, rsum. ring. Qed.
Lemma prod13 f g i j k l : rot4 Q (fun x y z w => f x z * g y w) i j k l = rot2 Q f i k * rot2 Q g j l.
Proof. unfold rot4, rot2, rsum. ring. Qed.
Lemma prod14 f g i j k l : rot4 Q (fun x y z w => f x w * g y z) i j k l = rot2 Q f i l * rot2 Q g j k.
Proof. unfold rot4, rot2, rsum. ring. Qed.
Lemma rot3_prod f d i j k : rot3 Q (fun x y z => d x * f y z) i j k = q d i * rot2 Q f j k.
Proof. unfold rot3, rot2, rot, mvec, rsum. ring. Qed.
Lemma rot3_prod2 f d i j k : rot3 Q (fun x y z => d y * f z x) i j k = q d j * rot2 Q f k i.
Proof. unfold rot3, rot2, rot, mvec, rsum. ring. Qed.
Lemma rot3_prod3 f d i j k : rot3 Q (fun x y z => d z * f y x) i j k = q d k * rot2 Q f j i.
Proof. unfold rot3, rot2, rot, mvec, rsum. ring. Qed.

(** The tensors of [two_body]. *)
Definition tG (x y : R) (d : vec) (j k l : nat) : R := x * (dev d k l * d j) + y * (d k * trans d l j + d l * trans d k j).
Definition tH (x : R) (d : vec) (j k l : nat) : R := x * (d k * eps d l j + d l * eps d k j).
Definition tM (x y z : R) (d : vec) (k l m n : nat) : R :=
  x * (3 / 2 * dev d k l * dev d m n)
  + y * (1 / 2 * (d k * d m * trans d l n + d l * d m * trans d k n + d k * d n * trans d l m + d l * d n * trans d k m))
  + z * (1 / 2 * (trans d k m * trans d l n + trans d l m * trans d k n - trans d k l * trans d m n)).

Lemma tG_rot x y d j k l : (j < 3)%nat -> (k < 3)%nat -> (l < 3)%nat -> tG x y (q d) j k l = rot3 Q (tG x y d) j k l.
Proof.
  intros Hj Hk Hl. unfold tG. rewrite !trans_rot, dev_rot by assumption.
  rewrite (rot3_ext Q _ (fun a b c => x * (d a * dev d b c) + y * (1 * (d b * trans d c a) + 1 * (d c * trans d b a)))) by (intros; ring).
  rewrite (rot3_lin Q x y (fun a b c => d a * dev d b c) (fun a b c => 1 * (d b * trans d c a) + 1 * (d c * trans d b a))).
  rewrite (rot3_lin Q 1 1 (fun a b c => d b * trans d c a) (fun a b c => d c * trans d b a)).
  rewrite rot3_prod, rot3_prod2, rot3_prod3. ring.
Qed.
Lemma tH_rot x d j k l : (j < 3)%nat -> (k < 3)%nat -> (l < 3)%nat -> tH x (q d) j k l = e * rot3 Q (tH x d) j k l.
Proof.
  intros Hj Hk Hl. unfold tH. rewrite !(eps_rot Q HQ) by assumption.
  rewrite (rot3_ext Q _ (fun a b c => x * (d b * eps d c a) + x * (d c * eps d b a))) by (intros; ring).
  rewrite (rot3_lin Q x x (fun a b c => d b * eps d c a) (fun a b c => d c * eps d b a)).
  rewrite rot3_prod2, rot3_prod3. ring.
Qed.
Lemma tM_rot x y z d k l m n : (k < 3)%nat -> (l < 3)%nat -> (m < 3)%nat -> (n < 3)%nat ->
  tM x y z (q d) k l m n = rot4 Q (tM x y z d) k l m n.
Proof.
  intros Hk Hl Hm Hn. unfold tM. set (u := dev d). set (v := trans d). set (w := fun a b => d a * d b).
  rewrite !trans_rot, !dev_rot by assumption. fold u v.
  pose proof (vec_rot2 Q d) as W. fold w in W.
  rewrite (rot4_ext Q _ (fun a b c f => (x * (3/2)) * (u a b * u c f) + 1 * (
     (y * (1/2)) * (1 * (1 * (w a c * v b f) + 1 * (v a f * w b c)) + 1 * (1 * (w a f * v b c) + 1 * (v a c * w b f)))
     + (z * (1/2)) * (1 * (1 * (v a c * v b f) + 1 * (v a f * v b c)) + (-(1)) * (v a b * v c f))))) by (intros; unfold w; field).
  rewrite (rot4_lin Q (x * (3/2)) 1 (fun a b c f => u a b * u c f)).
  rewrite (rot4_lin Q (y * (1/2)) (z * (1/2)) (fun a b c f => 1 * (1 * (w a c * v b f) + 1 * (v a f * w b c)) + 1 * (1 * (w a f * v b c) + 1 * (v a c * w b f)))).
  rewrite (rot4_lin Q 1 1 (fun a b c f => 1 * (w a c * v b f) + 1 * (v a f * w b c))).
  rewrite (rot4_lin Q 1 1 (fun a b c f => w a c * v b f)).
  rewrite (rot4_lin Q 1 1 (fun a b c f => w a f * v b c)).
  rewrite (rot4_lin Q 1 (-(1)) (fun a b c f => 1 * (v a c * v b f) + 1 * (v a f * v b c))).
  rewrite (rot4_lin Q 1 1 (fun a b c f => v a c * v b f)).
  rewrite !prod12, !prod13, !prod14. rewrite <- !W by assumption. field.
Qed.

Section Unit.
Variable d : vec.
Hypothesis Hd : sq d = 1.
Lemma d2 : d 0%nat * d 0%nat = 1 - d 1%nat * d 1%nat - d 2%nat * d 2%nat.
Proof. rewrite <- Hd. unfold sq. ring. Qed.
Lemma dev_sym k l : dev d k l = dev d l k. Proof. unfold dev. rewrite (delta_sym k l). ring. Qed.
Lemma trans_sym k l : trans d k l = trans d l k. Proof. unfold trans. rewrite (delta_sym k l). ring. Qed.
Lemma dev_tr : dev d 0 0 + dev d 1 1 + dev d 2 2 = 0.
Proof. unfold dev, delta. cbn [Nat.eqb]. rewrite d2. field. Qed.
Lemma trans_tr : trans d 0 0 + trans d 1 1 + trans d 2 2 = 2.
Proof. unfold trans, delta. cbn [Nat.eqb]. rewrite d2. ring. Qed.
Lemma trans_d j : (j < 3)%nat -> d 0%nat * trans d 0 j + d 1%nat * trans d 1 j + d 2%nat * trans d 2 j = 0.
Proof.
  intros Hj. unfold trans.
  transitivity ((d 0%nat * delta 0 j + d 1%nat * delta 1 j + d 2%nat * delta 2 j) - sq d * d j); [unfold sq; ring|].
  rewrite Hd. unfold delta. idx3 Hj; cbn [Nat.eqb]; ring.
Qed.
Lemma trans2 m n : (m < 3)%nat -> (n < 3)%nat ->
  trans d 0 m * trans d 0 n + trans d 1 m * trans d 1 n + trans d 2 m * trans d 2 n = trans d m n.
Proof.
  intros Hm Hn.
  transitivity ((delta 0 m * trans d 0 n + delta 1 m * trans d 1 n + delta 2 m * trans d 2 n)
    - d m * (d 0%nat * trans d 0 n + d 1%nat * trans d 1 n + d 2%nat * trans d 2 n)).
  { unfold trans at 1 3 5. ring. }
  rewrite trans_d by assumption. unfold delta. idx3 Hm; cbn [Nat.eqb]; ring.
Qed.
Lemma tG_st x y j : (j < 3)%nat -> st (tG x y d j).
Proof.
  intros Hj. split.
  - intros k l _ _. unfold tG. rewrite (dev_sym k l). ring.
  - transitivity (x * d j * (dev d 0 0 + dev d 1 1 + dev d 2 2)
      + 2 * y * (d 0%nat * trans d 0 j + d 1%nat * trans d 1 j + d 2%nat * trans d 2 j)); [unfold tG; ring|].
    rewrite dev_tr, trans_d by assumption. ring.
Qed.
Lemma tH_st x j : (j < 3)%nat -> st (tH x d j).
Proof.
  intros Hj. split; [intros k l _ _; unfold tH; ring|]. unfold tH, eps, levi, rsum. idx3 Hj; cbn [Nat.eqb orb andb]; ring.
Qed.
Lemma tM_st1 x y z m n : (m < 3)%nat -> (n < 3)%nat -> st (fun k l => tM x y z d k l m n).
Proof.
  intros Hm Hn. split.
  - intros k l _ _. unfold tM. rewrite (dev_sym k l), (trans_sym k l). field.
  - transitivity (x * (3/2) * (dev d 0 0 + dev d 1 1 + dev d 2 2) * dev d m n
      + y * (d m * (d 0%nat * trans d 0 n + d 1%nat * trans d 1 n + d 2%nat * trans d 2 n) + d n * (d 0%nat * trans d 0 m + d 1%nat * trans d 1 m + d 2%nat * trans d 2 m))
      + z * (1/2) * (2 * (trans d 0 m * trans d 0 n + trans d 1 m * trans d 1 n + trans d 2 m * trans d 2 n) - (trans d 0 0 + trans d 1 1 + trans d 2 2) * trans d m n)).
    { unfold tM. field. }
    rewrite dev_tr, !trans_d, trans2, trans_tr by assumption. field.
Qed.
Lemma tM_swap x y z k l m n : tM x y z d k l m n = tM x y z d m n k l.
Proof. unfold tM. rewrite (trans_sym m k), (trans_sym m l), (trans_sym n k), (trans_sym n l). field. Qed.
Lemma tM_st2 x y z k l : (k < 3)%nat -> (l < 3)%nat -> st (fun m n => tM x y z d k l m n).
Proof.
  intros Hk Hl. destruct (tM_st1 x y z k l Hk Hl) as [A B]. split.
  - intros m n Hm Hn. rewrite (tM_swap x y z k l m n), (tM_swap x y z k l n m). apply A; assumption.
  - rewrite !(tM_swap x y z k l). exact B.
Qed.

Lemma block_scal k1 k2 c f i j : turned_block Q k1 k2 (fun x y => c * f x y) i j = c * turned_block Q k1 k2 f i j.
Proof.
  unfold turned_block. rewrite <- rsum_scal_l. apply rsum_ext. intros. rewrite <- rsum_scal_l. apply rsum_ext. intros. ring.
Qed.
Lemma two_body_rot sc k1 k2 a i j : (i < ksize k1)%nat -> (j < ksize k2)%nat ->
  two_body sc k1 k2 (q d) a i j = turned_block Q k1 k2 (two_body sc k1 k2 d a) i j.
Proof.
  intros Hi Hj.
  assert (Z : forall k1 k2, 0 = turned_block Q k1 k2 (fun _ _ => 0) i j).
  { intros. unfold turned_block. symmetry. apply rsum_zero. intros. apply rsum_zero. intros. ring. }
  assert (UU : forall c x y, (i < 3)%nat -> (j < 3)%nat -> c * (x * (q d i * q d j) + y * trans (q d) i j)
     = rot2 Q (fun i j => c * (x * (d i * d j) + y * trans d i j)) i j).
  { intros c x y Hi3 Hj3. rewrite rot2_scal. f_equal. rewrite trans_rot, (vec_rot2 Q d) by assumption.
    symmetry. apply (rot2_lin Q x y (fun a b => d a * d b) (trans d)). }
  assert (SU : forall x y, (i < 5)%nat -> (j < 3)%nat ->
     condense_idx (tG x y (q d) j) i = turned_block Q KS KU (fun i j => condense_idx (tG x y d j) i) i j).
  { intros x y Hi5 Hj3. rewrite block_swap. unfold turned_block. cbn [ksize].
    rewrite (condense_ext _ (fun k l => rot3 Q (tG x y d) j k l)) by (intros; apply tG_rot; assumption).
    apply cond_rot3; try assumption. intros. apply tG_st. assumption. }
  destruct k1, k2; cbn [ksize] in Hi, Hj; try (apply Z).
  - apply (UU (6 * PI * a) (sc 0%nat) (sc 1%nat)); assumption.
  - apply (UU (6 * PI * a) (sc 0%nat) (sc 1%nat)); assumption.
  - change (two_body sc KO KU d a) with (fun i j => 4 * PI * a ^ 2 * (sc 2%nat * eps d i j)).
    change (two_body sc KO KU (q d) a i j) with (4 * PI * a ^ 2 * (sc 2%nat * eps (q d) i j)).
    rewrite (eps_rot Q HQ) by assumption. unfold turned_block, rot2. cbn [ksize tmat]. unfold mscal.
    generalize (eps d). intros E. unfold rsum. ring.
  - transitivity (e * e * rot2 Q (two_body sc KO KO d a) i j).
    + rewrite (det_sq Q HQ), Rmult_1_l. apply (UU (8 * PI * a ^ 3) (sc 3%nat) (sc 4%nat)); assumption.
    + unfold turned_block, rot2. cbn [ksize tmat]. unfold mscal. generalize (two_body sc KO KO d a). intros E. unfold rsum. ring.
  - change (two_body sc KO KB d a) with (fun i j => 4 * PI * a ^ 2 * (sc 2%nat * eps d i j)).
    change (two_body sc KO KB (q d) a i j) with (4 * PI * a ^ 2 * (sc 2%nat * eps (q d) i j)).
    rewrite (eps_rot Q HQ) by assumption. unfold turned_block, rot2. cbn [ksize tmat]. unfold mscal.
    generalize (eps d). intros E. unfold rsum. ring.
  - change (two_body sc KS KU d a) with (fun i j => 4 * PI * a ^ 2 * condense_idx (tG (sc 5%nat) (sc 6%nat) d j) i). rewrite block_scal.
    rewrite <- SU by assumption. reflexivity.
  - change (two_body sc KS KO d a) with (fun i j => 8 * PI * a ^ 3 * condense_idx (tH (sc 7%nat) d j) i). rewrite block_scal.
    change (two_body sc KS KO (q d) a i j) with (8 * PI * a ^ 3 * condense_idx (tH (sc 7%nat) (q d) j) i). f_equal.
    rewrite block_swap. unfold turned_block. cbn [ksize].
    transitivity (e * condense_idx (fun k l => rot3 Q (tH (sc 7%nat) d) j k l) i).
    { rewrite (condense_ext _ (fun k l => e * rot3 Q (tH (sc 7%nat) d) j k l)) by (intros; apply tH_rot; assumption).
      unfold condense_idx, rsum. ring. }
    rewrite cond_rot3; try assumption; [|intros; apply tH_st; assumption].
    rewrite <- rsum_scal_l. apply rsum_ext. intros. rewrite <- rsum_scal_l. apply rsum_ext. intros. cbn [tmat]. unfold mscal. ring.
  - change (two_body sc KS KS d a) with (fun i j => 20 / 3 * PI * a ^ 3 * condense_idx (fun k l => condense_idx (fun m n => tM (sc 8%nat) (sc 9%nat) (sc 10%nat) d k l m n) j) i).
    rewrite block_scal.
    change (two_body sc KS KS (q d) a i j) with (20 / 3 * PI * a ^ 3 * condense_idx (fun k l => condense_idx (fun m n => tM (sc 8%nat) (sc 9%nat) (sc 10%nat) (q d) k l m n) j) i).
    f_equal. unfold turned_block. cbn [ksize].
    rewrite <- (cond_rot4 Q (tM (sc 8%nat) (sc 9%nat) (sc 10%nat) d)); try assumption.
    + apply condense_ext. intros k l Hk Hl. apply condense_ext. intros m n Hm Hn. apply tM_rot; assumption.
    + intros. apply tM_st1; assumption.
    + intros. apply tM_st2; assumption.
  - change (two_body sc KS KB d a) with (fun i j => 4 * PI * a ^ 2 * condense_idx (tG (sc 5%nat) (sc 6%nat) d j) i). rewrite block_scal.
    change (turned_block Q KS KB) with (turned_block Q KS KU).
    rewrite <- SU by assumption. reflexivity.
  - apply (UU (6 * PI * a) (sc 0%nat) (sc 1%nat)); assumption.
  - apply (UU (6 * PI * a) (sc 0%nat) (sc 1%nat)); assumption.
Qed.
End Unit.
End Near.
