(** C78: the near-field functions and the series of which they are the limit. *)
From Coq Require Import Reals List Arith Lra Lia Bool.
From Verif Require Import Base Model_Nearfield Spec_Nearfield Proof_Nearfield10 Proof_Nearfield9 Spec_Series Proof_Series1 Proof_Series2 Proof_Series3.
Import ListNotations.
Local Open Scope R_scope.

(** Force due to translation. *)
Theorem C78_XA lam : 0 < lam ->
  expands true (continued 100 (coefficient Fxa lam) (G1xa lam) (G2xa lam) (G3xa lam) (- (2))) 1 1 (fun xi => X11A xi lam) /\
  expands false (continued 100 (coefficient Fxa lam) (G1xa lam) (G2xa lam) (G3xa lam) 2) 0 (- (1)) (fun xi => X12A xi lam).
Proof.
  intros Hl. split.
  - apply (even_minus Fxa G1xa G2xa G3xa lam 50 1 1 (fun xi => X11A xi lam) Hl); [lia|]. intros xi Hx. unfold X11A. cbv zeta. rewrite AX11_m1.
    generalize (original_sum Fxa G1xa G2xa G3xa lam (evens 50)). intros S. field. lra.
  - apply (odd_plus Fxa G1xa G2xa G3xa lam 50 0 (- (1)) (fun xi => X12A xi lam) Hl). intros xi Hx. unfold X12A, AX12. cbv zeta.
    change (intermediate_sum Fxa G1xa G2xa G3xa odd lam 100) with (lsum (plus_term Fxa G1xa G2xa G3xa lam) (odds 50)).
    generalize (lsum (plus_term Fxa G1xa G2xa G3xa lam) (odds 50)). intros S. field. lra.
Qed.
Print Assumptions C78_XA.

(** ... across the line of centres. *)
Theorem C78_YA lam : 0 < lam ->
  expands true (continued 100 (coefficient Fya lam) 0 (G2ya lam) (G3ya lam) (- (2))) 1 1 (fun xi => Y11A xi lam) /\
  expands false (continued 100 (coefficient Fya lam) 0 (G2ya lam) (G3ya lam) (- (2))) 0 (- (1)) (fun xi => Y12A xi lam).
Proof.
  intros Hl. split.
  - apply (even_minus Fya Zf G2ya G3ya lam 50 1 1 (fun xi => Y11A xi lam) Hl); [lia|]. intros xi Hx. unfold Y11A. cbv zeta. rewrite AY11_m1.
    generalize (original_sum Fya Zf G2ya G3ya lam (evens 50)). intros S. unfold Zf. field. lra.
  - apply (odd_minus Fya Zf G2ya G3ya lam 50 0 (- (1)) (fun xi => Y12A xi lam) Hl); [lia|]. intros xi Hx. unfold Y12A. cbv zeta. rewrite AY12_m1.
    generalize (original_sum Fya Zf G2ya G3ya lam (odds 50)). intros S. unfold Zf. field. lra.
Qed.
Print Assumptions C78_YA.

(** Torque due to translation. *)
Theorem C78_YB lam : 0 < lam ->
  expands false (continued 100 (coefficient Fyb lam) 0 (G2yb lam) (G3yb lam) 2) 0 1 (fun xi => Y11B xi lam) /\
  expands true (continued 100 (coefficient Fyb lam) 0 (G2yb lam) (G3yb lam) 2) 0 (- (1)) (fun xi => Y12B xi lam).
Proof.
  intros Hl. split.
  - apply (odd_plus Fyb Zf G2yb G3yb lam 50 0 1 (fun xi => Y11B xi lam) Hl). intros xi Hx. unfold Y11B, BY11. cbv zeta.
    change (intermediate_sum Fyb Zf G2yb G3yb odd lam 100) with (lsum (plus_term Fyb Zf G2yb G3yb lam) (odds 50)).
    generalize (lsum (plus_term Fyb Zf G2yb G3yb lam) (odds 50)). intros S. unfold Zf. field. lra.
  - apply (even_plus Fyb Zf G2yb G3yb lam 50 0 (- (1)) (fun xi => Y12B xi lam) Hl). intros xi Hx. unfold Y12B, BY12. cbv zeta.
    change (intermediate_sum Fyb Zf G2yb G3yb even lam 100) with (lsum (plus_term Fyb Zf G2yb G3yb lam) (evens 50)).
    generalize (lsum (plus_term Fyb Zf G2yb G3yb lam) (evens 50)). intros S. unfold Zf. field. lra.
Qed.
Print Assumptions C78_YB.

(** Torque due to rotation across the line of centres. *)
Theorem C78_YC lam : 0 < lam ->
  expands true (continued 100 (coefficient Fyc lam) 0 (G2yc lam) (G3yc lam) 2) 1 1 (fun xi => Y11C xi lam) /\
  expands false (continued 100 (coefficient Fyc lam) 0 (G4yc lam) (G5yc lam) 2) 0 1 (fun xi => Y12C xi lam).
Proof.
  intros Hl. split.
  - apply (even_plus Fyc Zf G2yc G3yc lam 50 1 1 (fun xi => Y11C xi lam) Hl). intros xi Hx. unfold Y11C, CY11. cbv zeta.
    change (intermediate_sum Fyc Zf G2yc G3yc even lam 100) with (lsum (plus_term Fyc Zf G2yc G3yc lam) (evens 50)).
    generalize (lsum (plus_term Fyc Zf G2yc G3yc lam) (evens 50)). intros S. unfold Zf. field. lra.
  - apply (odd_plus Fyc Zf G4yc G5yc lam 50 0 1 (fun xi => Y12C xi lam) Hl). intros xi Hx. unfold Y12C, CY12. cbv zeta.
    change (intermediate_sum Fyc Zf G4yc G5yc odd lam 100) with (lsum (plus_term Fyc Zf G4yc G5yc lam) (odds 50)).
    generalize (lsum (plus_term Fyc Zf G4yc G5yc lam) (odds 50)). intros S. unfold Zf. field. lra.
Qed.
Print Assumptions C78_YC.

(** Stresslet due to translation. *)
Theorem C78_XG lam : 0 < lam ->
  expands false (continued 100 (coefficient Fxg lam) (G1xg lam) (G2xg lam) (G3xg lam) 2) 0 1 (fun xi => X11G xi lam) /\
  expands true (continued 100 (coefficient Fxg lam) (G1xg lam) (G2xg lam) (G3xg lam) 2) 0 (- (1)) (fun xi => X12G xi lam).
Proof.
  intros Hl. split.
  - apply (odd_plus Fxg G1xg G2xg G3xg lam 50 0 1 (fun xi => X11G xi lam) Hl). intros xi Hx. unfold X11G, GX11. cbv zeta.
    change (intermediate_sum Fxg G1xg G2xg G3xg odd lam 100) with (lsum (plus_term Fxg G1xg G2xg G3xg lam) (odds 50)).
    generalize (lsum (plus_term Fxg G1xg G2xg G3xg lam) (odds 50)). intros S. unfold Zf. field. lra.
  - apply (even_plus Fxg G1xg G2xg G3xg lam 50 0 (- (1)) (fun xi => X12G xi lam) Hl). intros xi Hx. unfold X12G, GX12. cbv zeta.
    change (intermediate_sum Fxg G1xg G2xg G3xg even lam 100) with (lsum (plus_term Fxg G1xg G2xg G3xg lam) (evens 50)).
    generalize (lsum (plus_term Fxg G1xg G2xg G3xg lam) (evens 50)). intros S. unfold Zf. field. lra.
Qed.
Print Assumptions C78_XG.

(** ... across the line of centres. *)
Theorem C78_YG lam : 0 < lam ->
  expands false (continued 100 (coefficient Fyg lam) 0 (G2yg lam) (G3yg lam) 2) 0 1 (fun xi => Y11G xi lam) /\
  expands true (continued 100 (coefficient Fyg lam) 0 (G2yg lam) (G3yg lam) 2) 0 (- (1)) (fun xi => Y12G xi lam).
Proof.
  intros Hl. split.
  - apply (odd_plus Fyg Zf G2yg G3yg lam 50 0 1 (fun xi => Y11G xi lam) Hl). intros xi Hx. unfold Y11G, GY11. cbv zeta.
    change (intermediate_sum Fyg Zf G2yg G3yg odd lam 100) with (lsum (plus_term Fyg Zf G2yg G3yg lam) (odds 50)).
    generalize (lsum (plus_term Fyg Zf G2yg G3yg lam) (odds 50)). intros S. unfold Zf. field. lra.
  - apply (even_plus Fyg Zf G2yg G3yg lam 50 0 (- (1)) (fun xi => Y12G xi lam) Hl). intros xi Hx. unfold Y12G, GY12. cbv zeta.
    change (intermediate_sum Fyg Zf G2yg G3yg even lam 100) with (lsum (plus_term Fyg Zf G2yg G3yg lam) (evens 50)).
    generalize (lsum (plus_term Fyg Zf G2yg G3yg lam) (evens 50)). intros S. unfold Zf. field. lra.
Qed.
Print Assumptions C78_YG.

(** Stresslet due to rotation. *)
Theorem C78_YH lam : 0 < lam ->
  expands true (continued 100 (coefficient Fyh lam) 0 (G2yh lam) (G3yh lam) 2) 0 1 (fun xi => Y11H xi lam) /\
  expands false (continued 100 (coefficient Fyh lam) 0 (G5yh lam) (G6yh lam) 2) 0 1 (fun xi => Y12H xi lam).
Proof.
  intros Hl. split.
  - apply (even_plus Fyh Zf G2yh G3yh lam 50 0 1 (fun xi => Y11H xi lam) Hl). intros xi Hx. unfold Y11H, HY11. cbv zeta.
    change (intermediate_sum Fyh Zf G2yh G3yh even lam 100) with (lsum (plus_term Fyh Zf G2yh G3yh lam) (evens 50)).
    generalize (lsum (plus_term Fyh Zf G2yh G3yh lam) (evens 50)). intros S. unfold Zf. field. lra.
  - apply (odd_plus Fyh Zf G5yh G6yh lam 50 0 1 (fun xi => Y12H xi lam) Hl). intros xi Hx. unfold Y12H, HY12. cbv zeta.
    change (intermediate_sum Fyh Zf G5yh G6yh odd lam 100) with (lsum (plus_term Fyh Zf G5yh G6yh lam) (odds 50)).
    generalize (lsum (plus_term Fyh Zf G5yh G6yh lam) (odds 50)). intros S. unfold Zf. field. lra.
Qed.
Print Assumptions C78_YH.

(** Stresslet due to strain. *)
Theorem C78_XM lam : 0 < lam ->
  expands true (continued 100 (coefficient Fxm lam) (G1xm lam) (G2xm lam) (G3xm lam) 2) 1 1 (fun xi => X11M xi lam) /\
  expands false (continued 100 (coefficient Fxm lam) (G4xm lam) (G5xm lam) (G6xm lam) 2) 0 1 (fun xi => X12M xi lam).
Proof.
  intros Hl. split.
  - apply (even_plus Fxm G1xm G2xm G3xm lam 50 1 1 (fun xi => X11M xi lam) Hl). intros xi Hx. unfold X11M, MX11. cbv zeta.
    change (intermediate_sum Fxm G1xm G2xm G3xm even lam 100) with (lsum (plus_term Fxm G1xm G2xm G3xm lam) (evens 50)).
    generalize (lsum (plus_term Fxm G1xm G2xm G3xm lam) (evens 50)). intros S. unfold Zf. field. lra.
  - apply (odd_plus Fxm G4xm G5xm G6xm lam 50 0 1 (fun xi => X12M xi lam) Hl). intros xi Hx. unfold X12M, MX12. cbv zeta.
    change (intermediate_sum Fxm G4xm G5xm G6xm odd lam 100) with (lsum (plus_term Fxm G4xm G5xm G6xm lam) (odds 50)).
    generalize (lsum (plus_term Fxm G4xm G5xm G6xm lam) (odds 50)). intros S. unfold Zf. field. lra.
Qed.
Print Assumptions C78_XM.

(** ... of first order, *)
Theorem C78_YM lam : 0 < lam ->
  expands true (continued 130 (coefficient Fym lam) 0 (G2ym lam) (G3ym lam) 2) 1 1 (fun xi => Y11M xi lam) /\
  expands false (continued 130 (coefficient Fym lam) 0 (G5ym lam) (G6ym lam) 2) 0 1 (fun xi => Y12M xi lam).
Proof.
  intros Hl. split.
  - apply (even_plus Fym Zf G2ym G3ym lam 65 1 1 (fun xi => Y11M xi lam) Hl). intros xi Hx. unfold Y11M, MY11. cbv zeta.
    change (intermediate_sum Fym Zf G2ym G3ym even lam 130) with (lsum (plus_term Fym Zf G2ym G3ym lam) (evens 65)).
    generalize (lsum (plus_term Fym Zf G2ym G3ym lam) (evens 65)). intros S. unfold Zf. field. lra.
  - apply (odd_plus Fym Zf G5ym G6ym lam 65 0 1 (fun xi => Y12M xi lam) Hl). intros xi Hx. unfold Y12M, MY12. cbv zeta.
    change (intermediate_sum Fym Zf G5ym G6ym odd lam 130) with (lsum (plus_term Fym Zf G5ym G6ym lam) (odds 65)).
    generalize (lsum (plus_term Fym Zf G5ym G6ym lam) (odds 65)). intros S. unfold Zf. field. lra.
Qed.
Print Assumptions C78_YM.

Lemma zm_even lam : 0 < lam -> intermediate_sum_no_f0_coeff Fzm_with_sum_coeff Zf Zf G3zm even lam 150 = lsum (plus_term Fzm Zf Zf G3zm lam) (evens 75).
Proof.
  intros Hl. unfold intermediate_sum_no_f0_coeff. change (sumover even 150) with (evens 75). rewrite !lsum_evens. apply rsum_ext. intros j Hj.
  unfold plus_term. rewrite Fzm_coeff by exact Hl. reflexivity.
Qed.
Lemma zm_odd lam : 0 < lam -> intermediate_sum_no_f0_coeff Fzm_with_sum_coeff Zf Zf G3zm odd lam 200 = lsum (plus_term Fzm Zf Zf G3zm lam) (odds 100).
Proof.
  intros Hl. unfold intermediate_sum_no_f0_coeff. change (sumover odd 200) with (odds 100). rewrite !lsum_odds. apply rsum_ext. intros j Hj.
  unfold plus_term. rewrite Fzm_coeff by exact Hl. reflexivity.
Qed.
(** ... and of second order. *)
Theorem C78_ZM lam : 0 < lam ->
  expands true (continued 150 (coefficient Fzm lam) 0 0 (G3zm lam) 2) 1 1 (fun xi => Z11M xi lam) /\
  expands false (continued 200 (coefficient Fzm lam) 0 0 (G3zm lam) 2) 0 (- (1)) (fun xi => Z12M xi lam).
Proof.
  intros Hl. split.
  - apply (even_plus Fzm Zf Zf G3zm lam 75 1 1 (fun xi => Z11M xi lam) Hl). intros xi Hx. unfold Z11M, MZ11. cbv zeta. rewrite zm_even by exact Hl.
    generalize (lsum (plus_term Fzm Zf Zf G3zm lam) (evens 75)). intros S. unfold Zf. field. lra.
  - apply (odd_plus Fzm Zf Zf G3zm lam 100 0 (- (1)) (fun xi => Z12M xi lam) Hl). intros xi Hx. unfold Z12M, MZ12. cbv zeta. rewrite zm_odd by exact Hl.
    generalize (lsum (plus_term Fzm Zf Zf G3zm lam) (odds 100)). intros S. unfold Zf. field. lra.
Qed.
Print Assumptions C78_ZM.

(** The constants 1 and 0 above are the terms of order 0 of the same series. *)
Theorem C78_order_0 lam :
  coefficient Fxa lam 0 = 1 /\ coefficient Fya lam 0 = 1 /\ coefficient Fyb lam 0 = 0 /\ coefficient Fyc lam 0 = 1 /\ coefficient Fxg lam 0 = 0 /\
  coefficient Fyg lam 0 = 0 /\ coefficient Fyh lam 0 = 0 /\ coefficient Fxm lam 0 = 1 /\ coefficient Fym lam 0 = 1 /\ coefficient Fzm lam 0 = 1.
Proof.
  unfold coefficient. repeat split; cbv -[Rplus Rmult Rminus Ropp Rinv Rdiv pow INR IZR]; cbn [INR pow]; field.
Qed.
Print Assumptions C78_order_0.

(** Two equal spheres: the difference between X11A and the series goes to 0 with
    the gap, although both go to infinity. *)
Example C78_example : exists K, forall xi, 0 < xi <= 1 -> exists v,
  sums_to true (continued 100 (coefficient Fxa 1) (1 / 4) (9 / 40) (3 / 112) (- (2))) (2 / (2 + xi)) v /\ Rabs (X11A xi 1 - (1 + v)) <= K * xi.
Proof.
  destruct (C78_XA 1 ltac:(lra)) as [[Ex [K HK]] _].
  replace (G1xa 1) with (1 / 4) in * by (unfold G1xa; field). replace (G2xa 1) with (9 / 40) in * by (unfold G2xa; field). replace (G3xa 1) with (3 / 112) in * by (unfold G3xa; field).
  exists K. intros xi Hx. destruct (Ex xi (proj1 Hx)) as [v Hv]. exists v. split; [exact Hv|]. specialize (HK xi v Hx Hv). rewrite Rmult_1_l in HK. exact HK.
Qed.
