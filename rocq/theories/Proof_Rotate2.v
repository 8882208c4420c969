(** How the far-field pair functions turn. *)
From Coq Require Import Reals Arith Bool List Lia Lra.
From Verif Require Import Base Model_Pack Model_Mob Model_Layout Model_Minf Spec_Layout Spec_Minf Spec_Rotate Model_Ewald Proof_MinfP3 Proof_Rotate1.
Import ListNotations.
Local Open Scope R_scope.

(** Closed forms of the functions that involve the antisymmetric symbol. *)
Lemma Rt_closed r s i j : (i < 3)%nat -> (j < 3)%nat -> Rt r s i j = eps r i j / s ^ 3.
Proof.
  intros Hi Hj. unfold Rt, eps, D_J, lsum2, Rdiv. idx3 Hi; idx3 Hj; unfold levi, delta; simpl rsum; simpl Nat.eqb; simpl; try lra.
Qed.
Lemma Lap_R_closed r s i j : (i < 3)%nat -> (j < 3)%nat -> Lap_R r s i j = 0.
Proof.
  intros Hi Hj. unfold Lap_R, DLap_J, lsum2, Rdiv. idx3 Hi; idx3 Hj; unfold levi, delta; simpl; ring.
Qed.
Definition sq (r : vec) : R := r 0%nat ^ 2 + r 1%nat ^ 2 + r 2%nat ^ 2.
Lemma curl_curl r s i j : (i < 3)%nat -> (j < 3)%nat ->
  lsum2 (distinct3 i) (fun k l => levi i k l * D_R r s k l j)
  = 2 * delta i j * / s ^ 3 - 3 * (sq r * delta i j - r i * r j) * / s ^ 5.
Proof.
  intros Hi Hj. unfold sq, D_R, DD_J, kronkron, lsum2, Rdiv. generalize (/ s ^ 3) (/ s ^ 5) (/ s ^ 7). intros u v w.
  idx3 Hi; idx3 Hj; unfold levi, delta; simpl; ring_simplify; lra.
Qed.
Lemma curl_strain r s h i j k : (i < 3)%nat -> (j < 3)%nat -> (k < 3)%nat ->
  lsum2 (distinct3 i) (fun l m => levi i l m * (D_K r s l m j k + h * DLap_K r s l m j k))
  = - (3) * (eps r i j * r k + eps r i k * r j) * / s ^ 5.
Proof.
  intros Hi Hj Hk. unfold D_K, DD_J, DLap_K, kronkron, lsum2, eps, Rdiv. generalize (/ s ^ 3) (/ s ^ 5) (/ s ^ 7) (/ s ^ 9). intros u v w z.
  idx3 Hi; idx3 Hj; idx3 Hk; unfold levi, delta; simpl; lra.
Qed.

Section Rotate.
Variable Q : mat.
Hypothesis HQ : orthogonal Q.
Notation e := (det3 Q).
Notation q := (rot Q).
Ltac dl H := rewrite !H.

Ltac prep := unfold rot2, rot3, rot4, rot, mvec, kronkron, Rdiv;
  repeat match goal with |- context [delta ?i ?j] => is_var i; is_var j; rewrite (delta_rows Q HQ i j) by assumption end.

Lemma J_rot r s i j : (i < 3)%nat -> (j < 3)%nat ->
  J (q r i) (q r j) i j s = rot2 Q (fun a b => J (r a) (r b) a b s) i j.
Proof. intros Hi Hj. unfold J. prep. unfold delta. simpl. ring. Qed.
Lemma Lap_J_rot r s i j : (i < 3)%nat -> (j < 3)%nat ->
  Lap_J (q r i) (q r j) i j s = rot2 Q (fun a b => Lap_J (r a) (r b) a b s) i j.
Proof. intros Hi Hj. unfold Lap_J. prep. unfold delta. simpl. ring. Qed.
Lemma D_J_rot r s i j k : (i < 3)%nat -> (j < 3)%nat -> (k < 3)%nat ->
  D_J (q r) s i j k = rot3 Q (D_J r s) i j k.
Proof. intros Hi Hj Hk. unfold D_J. prep. unfold delta. simpl. ring. Qed.
Lemma DLap_J_rot r s i j k : (i < 3)%nat -> (j < 3)%nat -> (k < 3)%nat ->
  DLap_J (q r) s i j k = rot3 Q (DLap_J r s) i j k.
Proof. intros Hi Hj Hk. unfold DLap_J. prep. unfold delta. simpl. ring. Qed.
Lemma DLap_K_rot r s i j k l : (i < 3)%nat -> (j < 3)%nat -> (k < 3)%nat -> (l < 3)%nat ->
  DLap_K (q r) s i j k l = rot4 Q (DLap_K r s) i j k l.
Proof. intros Hi Hj Hk Hl. unfold DLap_K. prep. unfold delta. simpl. ring. Qed.
Lemma DD_J_rot r s i j k l : (i < 3)%nat -> (j < 3)%nat -> (k < 3)%nat -> (l < 3)%nat ->
  DD_J (q r) s i j k l = rot4 Q (DD_J r s) i j k l.
Proof. intros Hi Hj Hk Hl. unfold DD_J. prep. unfold delta. simpl. ring. Qed.

(** Linearity and exchange of indices. *)
Lemma rot2_lin c d f g i j : rot2 Q (fun a b => c * f a b + d * g a b) i j = c * rot2 Q f i j + d * rot2 Q g i j.
Proof. unfold rot2. simpl. ring. Qed.
Lemma rot3_lin c d f g i j k : rot3 Q (fun x y z => c * f x y z + d * g x y z) i j k = c * rot3 Q f i j k + d * rot3 Q g i j k.
Proof. unfold rot3. simpl. ring. Qed.
Lemma rot4_lin c d f g i j k l :
  rot4 Q (fun x y z w => c * f x y z w + d * g x y z w) i j k l = c * rot4 Q f i j k l + d * rot4 Q g i j k l.
Proof.
  unfold rot4. rewrite <- !rsum_scal_l, <- rsum_plus. apply rsum_ext. intros x _.
  rewrite <- !rsum_scal_l, <- rsum_plus. apply rsum_ext. intros y _.
  rewrite <- !rsum_scal_l, <- rsum_plus. apply rsum_ext. intros z _.
  rewrite <- !rsum_scal_l, <- rsum_plus. apply rsum_ext. intros w _. ring.
Qed.
Lemma rot2_scal c f i j : rot2 Q (fun a b => c * f a b) i j = c * rot2 Q f i j.
Proof. unfold rot2. simpl. ring. Qed.
Lemma rot3_scal c f i j k : rot3 Q (fun x y z => c * f x y z) i j k = c * rot3 Q f i j k.
Proof. unfold rot3. simpl. ring. Qed.
Lemma rot4_scal c f i j k l : rot4 Q (fun x y z w => c * f x y z w) i j k l = c * rot4 Q f i j k l.
Proof.
  unfold rot4. rewrite <- !rsum_scal_l. apply rsum_ext. intros x _.
  rewrite <- !rsum_scal_l. apply rsum_ext. intros y _.
  rewrite <- !rsum_scal_l. apply rsum_ext. intros z _.
  rewrite <- !rsum_scal_l. apply rsum_ext. intros w _. ring.
Qed.
Lemma rot2_ext f g i j : (forall a b, (a < 3)%nat -> (b < 3)%nat -> f a b = g a b) -> rot2 Q f i j = rot2 Q g i j.
Proof. intros H. unfold rot2. apply rsum_ext. intros a Ha. apply rsum_ext. intros b Hb. rewrite H by assumption. reflexivity. Qed.
Lemma rot3_ext f g i j k : (forall a b c, (a < 3)%nat -> (b < 3)%nat -> (c < 3)%nat -> f a b c = g a b c) -> rot3 Q f i j k = rot3 Q g i j k.
Proof.
  intros H. unfold rot3. apply rsum_ext. intros a Ha. apply rsum_ext. intros b Hb. apply rsum_ext. intros c Hc.
  rewrite H by assumption. reflexivity.
Qed.
Lemma rot4_ext f g i j k l : (forall a b c d, (a < 3)%nat -> (b < 3)%nat -> (c < 3)%nat -> (d < 3)%nat -> f a b c d = g a b c d) ->
  rot4 Q f i j k l = rot4 Q g i j k l.
Proof.
  intros H. unfold rot4. apply rsum_ext. intros a Ha. apply rsum_ext. intros b Hb. apply rsum_ext. intros c Hc.
  apply rsum_ext. intros d Hd. rewrite H by assumption. reflexivity.
Qed.
Lemma rot2_tr f i j : rot2 Q (fun a b => f b a) i j = rot2 Q f j i.
Proof. unfold rot2. simpl. ring. Qed.
Lemma rot3_cyc f i j k : rot3 Q (fun x y z => f z x y) i j k = rot3 Q f k i j.
Proof. unfold rot3. simpl. ring. Qed.
Lemma rot3_swap23 f i j k : rot3 Q (fun x y z => f x z y) i j k = rot3 Q f i k j.
Proof. unfold rot3. simpl. ring. Qed.
Lemma rot4_perm_kjil f i j k l : rot4 Q (fun x y z w => f x w y z) i j k l = rot4 Q f i l j k.
Proof. unfold rot4. simpl. ring. Qed.
Lemma rot4_swap34 f i j k l : rot4 Q (fun x y z w => f x y w z) i j k l = rot4 Q f i j l k.
Proof. unfold rot4. simpl. ring. Qed.
Lemma rot4_swap23 f i j k l : rot4 Q (fun x y z w => f x z y w) i j k l = rot4 Q f i k j l.
Proof. unfold rot4. simpl. ring. Qed.
Lemma rot4_swap12 f i j k l : rot4 Q (fun x y z w => f y x z w) i j k l = rot4 Q f j i k l.
Proof. unfold rot4. simpl. ring. Qed.
Lemma delta_rot i j : (i < 3)%nat -> (j < 3)%nat -> delta i j = rot2 Q delta i j.
Proof. intros Hi Hj. rewrite (delta_rows Q HQ i j) by assumption. unfold rot2, delta. simpl. ring. Qed.
Lemma vec_rot2 r i j : (i < 3)%nat -> (j < 3)%nat -> q r i * q r j = rot2 Q (fun a b => r a * r b) i j.
Proof. intros. unfold rot2, rot, mvec. simpl. ring. Qed.

Lemma M11_rot r s a1 a2 c mu i j : (i < 3)%nat -> (j < 3)%nat ->
  M11 (q r i) (q r j) s a1 a2 i j c mu = rot2 Q (fun a b => M11 (r a) (r b) s a1 a2 a b c mu) i j.
Proof.
  intros Hi Hj. unfold M11. destruct (Rlt_dec tiny s).
  - rewrite J_rot, Lap_J_rot by assumption.
    rewrite rot2_scal. f_equal.
    rewrite (rot2_ext (fun a b => J (r a) (r b) a b s + (a1 ^ 2 + a2 ^ 2) / 6 * Lap_J (r a) (r b) a b s)
       (fun a b => 1 * J (r a) (r b) a b s + (a1 ^ 2 + a2 ^ 2) / 6 * Lap_J (r a) (r b) a b s)) by (intros; ring).
    rewrite (rot2_lin 1 ((a1 ^ 2 + a2 ^ 2) / 6) (fun a b => J (r a) (r b) a b s) (fun a b => Lap_J (r a) (r b) a b s)). ring.
  - unfold Rdiv. rewrite (delta_rot i j) by assumption. rewrite Rmult_comm, <- rot2_scal. apply rot2_ext. intros. ring.
Qed.

Lemma M12_rot r s a1 a2 c mu i j : (i < 3)%nat -> (j < 3)%nat ->
  M12 (q r) s a1 a2 i j c mu = e * rot2 Q (fun a b => M12 r s a1 a2 a b c mu) i j.
Proof.
  intros Hi Hj. unfold M12. destruct (Rlt_dec tiny s).
  - rewrite Rt_closed, Lap_R_closed, (eps_rot Q HQ) by assumption.
    rewrite (rot2_ext (fun a b => c * (Rt r s a b + a1 ^ 2 / 6 * Lap_R r s a b)) (fun a b => (c * / s ^ 3) * eps r a b))
      by (intros; rewrite Rt_closed, Lap_R_closed by assumption; unfold Rdiv; ring).
    rewrite rot2_scal. unfold Rdiv. ring.
  - unfold rot2. simpl. ring.
Qed.

Lemma K_rot r s i j k : (i < 3)%nat -> (j < 3)%nat -> (k < 3)%nat -> K (q r) s i j k = rot3 Q (K r s) i j k.
Proof.
  intros Hi Hj Hk. unfold K. rewrite !D_J_rot by assumption. rewrite rot3_scal.
  rewrite (rot3_ext (fun x y z => D_J r s z x y + D_J r s y x z) (fun x y z => 1 * D_J r s z x y + 1 * D_J r s y x z)) by (intros; ring).
  rewrite (rot3_lin 1 1 (fun x y z => D_J r s z x y) (fun x y z => D_J r s y x z)).
  rewrite (rot3_cyc (D_J r s)).
  rewrite (rot3_swap23 (fun x y z => D_J r s z x y)). rewrite (rot3_cyc (D_J r s)). ring.
Qed.
Lemma M13_rot r s a1 a2 c mu i j k : (i < 3)%nat -> (j < 3)%nat -> (k < 3)%nat ->
  M13 (q r) s a1 a2 i j k c mu = rot3 Q (fun x y z => M13 r s a1 a2 x y z c mu) i j k.
Proof.
  intros Hi Hj Hk. unfold M13. destruct (Rlt_dec tiny s).
  - rewrite K_rot by assumption. unfold Lap_K. rewrite DLap_J_rot by assumption.
    rewrite rot3_scal. f_equal.
    rewrite (rot3_ext (fun x y z => K r s x y z + (a1 ^ 2 / 6 + a2 ^ 2 / 10) * DLap_J r s x y z)
       (fun x y z => 1 * K r s x y z + (a1 ^ 2 / 6 + a2 ^ 2 / 10) * DLap_J r s x y z)) by (intros; ring).
    rewrite (rot3_lin 1 (a1 ^ 2 / 6 + a2 ^ 2 / 10) (K r s) (DLap_J r s)). ring.
  - unfold rot3. simpl. ring.
Qed.

Lemma D_K_rot r s i j k l : (i < 3)%nat -> (j < 3)%nat -> (k < 3)%nat -> (l < 3)%nat -> D_K (q r) s i j k l = rot4 Q (D_K r s) i j k l.
Proof.
  intros Hi Hj Hk Hl. unfold D_K. rewrite !DD_J_rot by assumption. rewrite rot4_scal.
  rewrite (rot4_ext (fun x y z w => DD_J r s x w y z + DD_J r s x z y w) (fun x y z w => 1 * DD_J r s x w y z + 1 * DD_J r s x z y w)) by (intros; ring).
  rewrite (rot4_lin 1 1 (fun x y z w => DD_J r s x w y z) (fun x y z w => DD_J r s x z y w)).
  rewrite (rot4_perm_kjil (DD_J r s)), (rot4_swap23 (DD_J r s)). ring.
Qed.
Lemma M33_rot r s a1 a2 c mu i j k l : (i < 3)%nat -> (j < 3)%nat -> (k < 3)%nat -> (l < 3)%nat ->
  M33 (q r) s a1 a2 i j k l c mu = rot4 Q (fun x y z w => M33 r s a1 a2 x y z w c mu) i j k l.
Proof.
  intros Hi Hj Hk Hl. unfold M33. rewrite !D_K_rot, !DLap_K_rot by assumption.
  rewrite rot4_scal. f_equal.
  rewrite (rot4_ext (fun x y z w => D_K r s y x z w + D_K r s x y z w + (a1 ^ 2 + a2 ^ 2) / 10 * (DLap_K r s y x z w + DLap_K r s x y z w))
     (fun x y z w => 1 * (1 * D_K r s y x z w + 1 * D_K r s x y z w) + (a1 ^ 2 + a2 ^ 2) / 10 * (1 * DLap_K r s y x z w + 1 * DLap_K r s x y z w))) by (intros; ring).
  rewrite (rot4_lin 1 ((a1 ^ 2 + a2 ^ 2) / 10) (fun x y z w => 1 * D_K r s y x z w + 1 * D_K r s x y z w)
     (fun x y z w => 1 * DLap_K r s y x z w + 1 * DLap_K r s x y z w)).
  rewrite (rot4_lin 1 1 (fun x y z w => D_K r s y x z w) (D_K r s)).
  rewrite (rot4_lin 1 1 (fun x y z w => DLap_K r s y x z w) (DLap_K r s)).
  rewrite (rot4_swap12 (D_K r s)), (rot4_swap12 (DLap_K r s)). ring.
Qed.

(** [M22] and [M23] choose their branch by the sum of the absolute values. *)
Definition resolved (r : vec) : Prop := tiny < norm r \/ forall i, (i < 3)%nat -> r i = 0.
Lemma resolved_rot r : resolved r -> resolved (q r).
Proof.
  intros [H|H]; [left; rewrite rot_norm by assumption; exact H|right]. intros i Hi. unfold rot, mvec. simpl. rewrite !H by lia. ring.
Qed.
Lemma branch_of r : resolved r ->
  (if Rlt_dec tiny (Rabs (r 0%nat) + Rabs (r 1%nat) + Rabs (r 2%nat)) then true else false) = (if Rlt_dec tiny (norm r) then true else false).
Proof.
  intros [H|H].
  - pose proof (norm_le_abs1 r) as L. unfold abs1 in L. destruct (Rlt_dec tiny (norm r)); [|lra].
    destruct (Rlt_dec tiny _); [reflexivity|lra].
  - unfold norm. rewrite !H by lia. rewrite Rabs_R0.
    replace (0 ^ 2 + 0 ^ 2 + 0 ^ 2) with 0 by ring. rewrite sqrt_0.
    destruct (Rlt_dec tiny (0 + 0 + 0)), (Rlt_dec tiny 0); lra || reflexivity.
Qed.
Lemma M22_rot r s a1 a2 c mu i j : (i < 3)%nat -> (j < 3)%nat -> resolved r ->
  M22 (q r) s a1 a2 i j c mu = rot2 Q (fun a b => M22 r s a1 a2 a b c mu) i j.
Proof.
  intros Hi Hj Hr. unfold M22. pose proof (branch_of r Hr) as A. pose proof (branch_of (q r) (resolved_rot r Hr)) as B.
  rewrite (rot_norm Q HQ) in B. rewrite <- A in B. clear A.
  destruct (Rlt_dec tiny (Rabs (q r 0%nat) + Rabs (q r 1%nat) + Rabs (q r 2%nat)));
  destruct (Rlt_dec tiny (Rabs (r 0%nat) + Rabs (r 1%nat) + Rabs (r 2%nat))); try discriminate.
  - rewrite curl_curl by assumption.
    rewrite (rot2_ext (fun a b => c * (1 / 2) * lsum2 (distinct3 a) (fun k l => levi a k l * D_R r s k l b))
      (fun a b => (c * (1 / 2) * (2 * / s ^ 3 - 3 * sq r * / s ^ 5)) * delta a b + (c * (1 / 2) * (3 * / s ^ 5)) * (r a * r b)))
      by (intros a b Ha Hb; rewrite curl_curl by assumption; ring).
    rewrite (rot2_lin (c * (1 / 2) * (2 * / s ^ 3 - 3 * sq r * / s ^ 5)) (c * (1 / 2) * (3 * / s ^ 5)) delta (fun a b => r a * r b)).
    rewrite <- delta_rot, <- vec_rot2 by assumption.
    replace (sq (q r)) with (sq r) by (symmetry; apply rot_norm2; assumption). ring.
  - unfold Rdiv. rewrite (delta_rot i j) by assumption. rewrite Rmult_comm, <- rot2_scal. apply rot2_ext. intros. ring.
Qed.
Lemma M23_rot r s a1 a2 c mu i j k : (i < 3)%nat -> (j < 3)%nat -> (k < 3)%nat -> resolved r ->
  M23 (q r) s a1 a2 i j k c mu = e * rot3 Q (fun x y z => M23 r s a1 a2 x y z c mu) i j k.
Proof.
  intros Hi Hj Hk Hr. unfold M23. pose proof (branch_of r Hr) as A. pose proof (branch_of (q r) (resolved_rot r Hr)) as B.
  rewrite (rot_norm Q HQ) in B. rewrite <- A in B. clear A.
  destruct (Rlt_dec tiny (Rabs (q r 0%nat) + Rabs (q r 1%nat) + Rabs (q r 2%nat)));
  destruct (Rlt_dec tiny (Rabs (r 0%nat) + Rabs (r 1%nat) + Rabs (r 2%nat))); try discriminate.
  - rewrite curl_strain by assumption.
    rewrite (rot3_ext (fun x y z => c * - (1 / 2) * lsum2 (distinct3 x) (fun l m => levi x l m * (D_K r s l m y z + a2 ^ 2 / 6 * DLap_K r s l m y z)))
      (fun x y z => (c * - (1 / 2) * - (3) * / s ^ 5) * (eps r x y * r z) + (c * - (1 / 2) * - (3) * / s ^ 5) * (eps r x z * r y)))
      by (intros x y z Hx Hy Hz; rewrite curl_strain by assumption; ring).
    rewrite (rot3_lin _ _ (fun x y z => eps r x y * r z) (fun x y z => eps r x z * r y)).
    rewrite !(eps_rot Q HQ) by assumption. unfold rot3, rot2, rot, mvec. generalize (eps r). intros E. simpl. ring.
  - unfold rot3. simpl. ring.
Qed.
End Rotate.
