(** The sums of the source as expansions of continued series. *)
From Coq Require Import Reals List Arith Lra Lia Bool.
From Verif Require Import Base Model_Nearfield Spec_Nearfield Proof_Nearfield9 Proof_Nearfield10 Spec_Series Proof_Series1 Proof_Series2.
Import ListNotations.
Local Open Scope R_scope.

Lemma coefficient_eq F lam m : 0 < lam -> / 2 ^ m * / (1 + lam) ^ m * F m lam = coefficient F lam m.
Proof.
  intros Hl. unfold coefficient. rewrite Rpow_mult_distr. assert (2 ^ m <> 0) by (apply pow_nonzero; lra). assert ((1 + lam) ^ m <> 0) by (apply pow_nonzero; lra).
  field. split; assumption.
Qed.
Lemma lsum_evens (h : nat -> R) J : lsum h (evens J) = rsum J (fun j => h (order true j)).
Proof.
  unfold evens. rewrite lsum_map. induction J as [|J IH]; [reflexivity|]. rewrite (lsum_last _ 0 J). cbn [rsum]. rewrite IH. f_equal. unfold order. f_equal. lia.
Qed.
Lemma lsum_odds (h : nat -> R) J : lsum h (odds J) = rsum J (fun j => h (order false j)).
Proof.
  unfold odds. rewrite lsum_map. induction J as [|J IH]; [reflexivity|]. rewrite (lsum_last _ 0 J). cbn [rsum]. rewrite IH. f_equal. unfold order. f_equal. lia.
Qed.
Definition plus_term (F : nat -> R -> R) (f1 f2 f3 : R -> R) lam m : R :=
  / 2 ^ m * / (1 + lam) ^ m * F m lam - f1 lam - 2 * / INR m * f2 lam + 4 * / INR m * / INR (m + 2) * f3 lam.
Lemma order_pos ev j : 0 < INR (order ev j).
Proof. apply lt_0_INR. unfold order. destruct ev; lia. Qed.
Lemma plus_D F f1 f2 f3 lam ev j : 0 < lam ->
  coefficient F lam (order ev j) - (f1 lam + 2 * f2 lam / INR (order ev j) - 4 * f3 lam / (INR (order ev j) * (INR (order ev j) + 2))) = plus_term F f1 f2 f3 lam (order ev j).
Proof.
  intros Hl. unfold plus_term. rewrite coefficient_eq by exact Hl. rewrite plus_INR. change (INR 2) with 2. pose proof (order_pos ev j). field. lra.
Qed.
Lemma minus_D F f1 f2 f3 lam ev j : 0 < lam ->
  coefficient F lam (order ev j) - (f1 lam + 2 * f2 lam / INR (order ev j) - 4 * f3 lam / (INR (order ev j) * m1 (order ev j)))
  = / 2 ^ order ev j * / (1 + lam) ^ order ev j * F (order ev j) lam - f1 lam - 2 * / INR (order ev j) * f2 lam + 4 * / (INR (order ev j) * m1 (order ev j)) * f3 lam.
Proof. intros Hl. rewrite coefficient_eq by exact Hl. set (m := order ev j). unfold Rdiv. set (a := / (INR m * m1 m)). set (b := / INR m). set (c := coefficient F lam m). clearbody a b c. ring. Qed.
Lemma cont_early M c g1 g2 g3 sh m : (m <= M)%nat -> continued M c g1 g2 g3 sh m = c m.
Proof. intros Hm. unfold continued. rewrite (proj2 (Nat.leb_le m M)) by exact Hm. reflexivity. Qed.
Lemma cont_late M c g1 g2 g3 sh m : (M < m)%nat -> continued M c g1 g2 g3 sh m = g1 + 2 * g2 / INR m - 4 * g3 / (INR m * (INR m + sh)).
Proof. intros Hm. unfold continued. rewrite (proj2 (Nat.leb_gt m M)) by exact Hm. reflexivity. Qed.
Lemma small_e2' : small (fun xi => logy ((2 / (2 + xi)) ^ 2) - (ln (/ xi) + 0)).
Proof. eapply small_ext; [|exact small_e2]. intros xi _. cbv beta. rewrite Rplus_0_r. reflexivity. Qed.
Lemma small_e1' : small (fun xi => (2 / (2 + xi)) ^ 2 / (1 - (2 / (2 + xi)) ^ 2) - (/ xi + - / 4)).
Proof. eapply small_ext; [|exact small_e1]. intros xi _. cbv beta zeta. unfold Rminus at 2. reflexivity. Qed.
Lemma small_e4' : small (fun xi => - (1 - (2 / (2 + xi)) ^ 2) * logy ((2 / (2 + xi)) ^ 2) - (0 - xi * ln (/ xi))).
Proof. eapply small_ext; [|exact small_e4]. intros xi _. cbv beta zeta. rewrite Rminus_0_l. reflexivity. Qed.

Section Four.
Variables (F : nat -> R -> R) (f1 f2 f3 : R -> R) (lam : R) (J : nat) (v0 sign : R) (X : R -> R).
Hypothesis Hl : 0 < lam.
Lemma even_plus :
  (forall xi, 0 < xi -> X xi = v0 + sign * (f1 lam * / xi + f2 lam * ln (/ xi) + (- (1 / 4) * f1 lam - f3 lam + lsum (plus_term F f1 f2 f3 lam) (evens J)) + f3 lam * xi * ln (/ xi))) ->
  expands true (continued (2 * J) (coefficient F lam) (f1 lam) (f2 lam) (f3 lam) 2) v0 sign X.
Proof.
  intros HX. apply (continued_expands true (coefficient F lam) _ (fun m => INR m + 2) (f1 lam) (f2 lam) (f3 lam) J (- / 4) 0 1
    (fun x => x ^ 2 / (1 - x ^ 2)) (fun x => logy (x ^ 2)) (fun x => 1 - (1 - x ^ 2) / x ^ 2 * logy (x ^ 2))).
  - intros j Hj. apply cont_early. unfold order. lia.
  - intros j Hj. apply cont_late. unfold order. lia.
  - exact e1_cv.
  - exact e2_cv.
  - exact e3_cv.
  - exact small_e1'.
  - exact small_e2'.
  - exact small_e3.
  - intros xi Hx. rewrite HX by exact Hx. rewrite lsum_evens. rewrite (rsum_ext J _ _ (fun j _ => plus_D F f1 f2 f3 lam true j Hl)). field. lra.
Qed.
Lemma odd_plus :
  (forall xi, 0 < xi -> X xi = v0 + sign * (f1 lam * / xi + f2 lam * ln (/ xi) + (1 / 4 * f1 lam + 2 * f2 lam * ln 2 - 2 * f3 lam + lsum (plus_term F f1 f2 f3 lam) (odds J)) + f3 lam * xi * ln (/ xi))) ->
  expands false (continued (2 * J) (coefficient F lam) (f1 lam) (f2 lam) (f3 lam) 2) v0 sign X.
Proof.
  intros HX. apply (continued_expands false (coefficient F lam) _ (fun m => INR m + 2) (f1 lam) (f2 lam) (f3 lam) J (/ 4) (2 * ln 2) 2
    (fun x => x / (1 - x ^ 2)) logx (fun x => 2 / x - (1 - x ^ 2) / x ^ 2 * logx x)).
  - intros j Hj. apply cont_early. unfold order. lia.
  - intros j Hj. apply cont_late. unfold order. lia.
  - exact o1_cv.
  - exact o2_cv.
  - exact o3_cv.
  - exact small_o1.
  - exact small_o2.
  - exact small_o3.
  - intros xi Hx. rewrite HX by exact Hx. rewrite lsum_odds. rewrite (rsum_ext J _ _ (fun j _ => plus_D F f1 f2 f3 lam false j Hl)). field. lra.
Qed.
Lemma m1_late ev j : (1 <= j)%nat -> m1 (order ev j) = INR (order ev j) + - (2).
Proof. intros Hj. unfold m1. rewrite (proj2 (Nat.eqb_neq (order ev j) 2)) by (unfold order; destruct ev; lia). ring. Qed.
Lemma even_minus : (1 <= J)%nat ->
  (forall xi, 0 < xi -> X xi = v0 + sign * (f1 lam * / xi + f2 lam * ln (/ xi) + (- (1 / 4) * f1 lam + original_sum F f1 f2 f3 lam (evens J)) + f3 lam * xi * ln (/ xi))) ->
  expands true (continued (2 * J) (coefficient F lam) (f1 lam) (f2 lam) (f3 lam) (- (2))) v0 sign X.
Proof.
  intros HJ HX. apply (continued_expands true (coefficient F lam) _ m1 (f1 lam) (f2 lam) (f3 lam) J (- / 4) 0 0
    (fun x => x ^ 2 / (1 - x ^ 2)) (fun x => logy (x ^ 2)) (fun x => - (1 - x ^ 2) * logy (x ^ 2))).
  - intros j Hj. apply cont_early. unfold order. lia.
  - intros j Hj. rewrite cont_late by (unfold order; lia). rewrite m1_late by lia. reflexivity.
  - exact e1_cv.
  - exact e2_cv.
  - exact e4_cv.
  - exact small_e1'.
  - exact small_e2'.
  - exact small_e4'.
  - intros xi Hx. rewrite HX by exact Hx. rewrite original_lsum, lsum_evens. rewrite (rsum_ext J _ _ (fun j _ => minus_D F f1 f2 f3 lam true j Hl)). field. lra.
Qed.
Lemma odd_minus : (1 <= J)%nat ->
  (forall xi, 0 < xi -> X xi = v0 + sign * (f1 lam * / xi + f2 lam * ln (/ xi) + (1 / 4 * f1 lam + 2 * f2 lam * ln 2 + 2 * f3 lam + original_sum F f1 f2 f3 lam (odds J)) + f3 lam * xi * ln (/ xi))) ->
  expands false (continued (2 * J) (coefficient F lam) (f1 lam) (f2 lam) (f3 lam) (- (2))) v0 sign X.
Proof.
  intros HJ HX. apply (continued_expands false (coefficient F lam) _ m1 (f1 lam) (f2 lam) (f3 lam) J (/ 4) (2 * ln 2) (- (2))
    (fun x => x / (1 - x ^ 2)) logx (fun x => - (2) * x - (1 - x ^ 2) * logx x)).
  - intros j Hj. apply cont_early. unfold order. lia.
  - intros j Hj. rewrite cont_late by (unfold order; lia). rewrite m1_late by lia. reflexivity.
  - exact o1_cv.
  - exact o2_cv.
  - exact o4_cv.
  - exact small_o1.
  - exact small_o2.
  - exact small_o4.
  - intros xi Hx. rewrite HX by exact Hx. rewrite original_lsum, lsum_odds. rewrite (rsum_ext J _ _ (fun j _ => minus_D F f1 f2 f3 lam false j Hl)). field. lra.
Qed.
End Four.
